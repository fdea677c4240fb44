(** The whole mix network with any number of rounds: every server with its round table (Model/Rounds.v),
    one sender per opened round (sender.go), the AddMessages requests travelling between them, and the
    clients. *)
From stdpp Require Import gmap.
From Verif.Base Require Import Base.
From Verif.Model Require Import Topology Shuffle Onion Mixer Rounds System.

(** A DirectCall of AddMessages: who makes it ([None]: a client; [Some (h, id)]: the sender of object
    [id] of server [h]), to which host, and the request (sender.go:51, 58-87). *)
Record fcall := mkFcall { fc_from : option (string * nat); fc_to : string; fc_rq : AddRequest }.

(** [fl_queue]: the calls the senders have still to make (sender.go:48-54).  [fl_net]: calls made and
    not yet handled.  [fl_hand]: calls whose handler has looked up the round (server.go:175) and found
    the object with the given number, but has not entered Mixers.AddMessages (mixer.go:192).  [fl_back]:
    answers under way to a sender's server, each with the call it answers.  [fl_wait]: DirectCalls of
    senders that have not returned and are in waitingTasks of their connection (rrpc/client.go:236).
    [fl_void]: DirectCalls whose entry was replaced by a later one with the same uuid: nothing completes
    them any more (C57). *)
Record fleet := mkFleet {
  fl_srv : gmap string server;
  fl_queue : list fcall;
  fl_net : list fcall;
  fl_hand : list (fcall * nat);
  fl_back : list fcall;
  fl_wait : list fcall;
  fl_void : list fcall
}.
(** waitingTasks is a map from uuids, one for every connection, that is every pair of servers
    (rrpc/client.go:30, server.go:195-209). *)
Definition entry (c : fcall) : option string * string * string :=
  (fst <$> fc_from c, fc_to c, rq_uuid (fc_rq c)).
(** Nobody looks at the answers to clients. *)
Definition reply (c : fcall) : list fcall := match fc_from c with Some _ => [c] | None => [] end.

Inductive flabel :=
| FClient (h : string) (rq : AddRequest)      (* a client calls AddMessages of server h *)
| FServer (h : string) (l : slabel)           (* NewRound, EndRound, GetMessages at h; other steps of h *)
| FAccept (c : fcall) (id : nat)              (* server.go:175: the handler of c found object id *)
| FRefuse (c : fcall)                         (* server.go:176-178: no such round *)
| FLose (c : fcall)                           (* c is lost *)
| FEnter (c : fcall) (id : nat)               (* the handler enters Mixers.AddMessages *)
| FTake (h : string) (id : nat) (o : mixoutput) (cs : list fcall) (* the sender takes an output *)
| FSend (c : fcall)                           (* a sender makes its next call *)
| FReturn (c : fcall)                         (* an answer with the uuid of c arrives: its DirectCall returns *)
| FTimeout (c : fcall)                        (* DirectCall of c gives up (rrpc/gc.go) *)
| FCrash (h : string) (id : nat) (o : mixoutput). (* the sender crashes the process of h on an output *)

Definition fcalls_of (h : string) (id : nat) (cs : list (string * AddRequest)) : list fcall :=
  (λ e, mkFcall (Some (h, id)) e.1 e.2) <$> cs.

(** What a server does by itself: everything but AddMessages calls and the senders' receives.  Rounds are
    uint32 (mix.proto, NewRoundRequest). *)
Definition server_label (l : slabel) : Prop :=
  match l with
  | SAdd _ _ _ => False
  | SObj _ l => own_label l
  | SNew r _ _ => (r < 2 ^ 32)%N
  | _ => True
  end.

(** The process ends. *)
Definition downed (sv : server) : server :=
  mkServer (sv_states sv) (sv_objs sv) (sv_calls sv) (sv_closing sv) (sv_reads sv) true.

Section fleet.
(** The topology, what decrypting with the key of a host for a round does, numbers of workers and
    capacities of the task channels.  All servers have dialed their peers (Connections is never nil:
    server.go:99). *)
Context (t : topology) (peel : string → N → onion → option (option onion))
        (workers taskCap : string → nat).

Definition hsstep (h : string) : server → slabel → server → Prop :=
  sstep true t h (peel h) (workers h) (taskCap h).

(** All calls a sender waits for or has yet to make. *)
Definition unfinished (f : fleet) : list fcall := fl_queue f ++ fl_wait f ++ fl_void f.
(** DirectCall returns when an answer came or the call timed out (rrpc/client.go:216-223): the sender of
    object id of h goes on only then.  (An answer may come as soon as the handler has entered
    Mixers.AddMessages, without waiting for it to return: more schedules than the code has.) *)
Definition free (cs : list fcall) (h : string) (id : nat) : Prop := ∀ c, c ∈ cs → fc_from c ≠ Some (h, id).

Definition with_server (f : fleet) (h : string) (sv : server) : fleet :=
  mkFleet (<[h := sv]> (fl_srv f)) (fl_queue f) (fl_net f) (fl_hand f) (fl_back f) (fl_wait f) (fl_void f).

Inductive fstep : fleet → flabel → fleet → Prop :=
| f_client f h rq :
    fstep f (FClient h rq) (mkFleet (fl_srv f) (fl_queue f) (fl_net f ++ [mkFcall None h rq]) (fl_hand f)
      (fl_back f) (fl_wait f) (fl_void f))
(* server.go:55-79, 108-172 and the goroutines of the Mixers objects *)
| f_server f h l sv sv' :
    fl_srv f !! h = Some sv → server_label l → hsstep h sv l sv' →
    fstep f (FServer h l) (with_server f h sv')
(* server.go:174-178 *)
| f_accept f n1 c n2 sv sv' id :
    fl_net f = n1 ++ c :: n2 → fl_srv f !! fc_to c = Some sv →
    hsstep (fc_to c) sv (SAdd (rq_round (fc_rq c)) (rq_msgs (fc_rq c)) (Ok id)) sv' →
    fstep f (FAccept c id)
      (mkFleet (<[fc_to c := sv']> (fl_srv f)) (fl_queue f) (n1 ++ n2) (fl_hand f ++ [(c, id)])
        (fl_back f) (fl_wait f) (fl_void f))
| f_refuse f n1 c n2 sv sv' e :
    fl_net f = n1 ++ c :: n2 → fl_srv f !! fc_to c = Some sv →
    hsstep (fc_to c) sv (SAdd (rq_round (fc_rq c)) (rq_msgs (fc_rq c)) (Err e)) sv' →
    fstep f (FRefuse c) (mkFleet (<[fc_to c := sv']> (fl_srv f)) (fl_queue f) (n1 ++ n2) (fl_hand f)
      (fl_back f ++ reply c) (fl_wait f) (fl_void f))
| f_lose f n1 c n2 :
    fl_net f = n1 ++ c :: n2 →
    fstep f (FLose c) (mkFleet (fl_srv f) (fl_queue f) (n1 ++ n2) (fl_hand f) (fl_back f) (fl_wait f) (fl_void f))
(* server.go:181, mixer.go:192 *)
| f_enter f h1 c id h2 sv sv' :
    fl_hand f = h1 ++ (c, id) :: h2 → fl_srv f !! fc_to c = Some sv →
    hsstep (fc_to c) sv (SObj id (LAdd (rq_msgs (fc_rq c)))) sv' →
    fstep f (FEnter c id) (mkFleet (<[fc_to c := sv']> (fl_srv f)) (fl_queue f) (fl_net f) (h1 ++ h2)
      (fl_back f ++ reply c) (fl_wait f) (fl_void f))
(* sender.go:44-49; the round of the sender is the one NewRound was called with (server.go:145-151) *)
| f_take f h id o sv ob sv' cs :
    fl_srv f !! h = Some sv → sv_objs sv !! id = Some ob → free (unfinished f) h id →
    hsstep h sv (SObj id (LRecv o)) sv' →
    sender_iteration (Z.of_N (ro_round ob)) t h (sender_input o) (mo_sender o) (Some cs) →
    fstep f (FTake h id o (fcalls_of h id cs))
      (mkFleet (<[h := sv']> (fl_srv f)) (fl_queue f ++ fcalls_of h id cs) (fl_net f) (fl_hand f)
        (fl_back f) (fl_wait f) (fl_void f))
| f_crash f h id o sv ob sv' :
    fl_srv f !! h = Some sv → sv_objs sv !! id = Some ob → free (unfinished f) h id →
    hsstep h sv (SObj id (LRecv o)) sv' →
    sender_iteration (Z.of_N (ro_round ob)) t h (sender_input o) (mo_sender o) None →
    fstep f (FCrash h id o) (with_server f h (downed sv'))
(* sender.go:48-51, rrpc/client.go:226-238: the next call, when the previous one has returned.  Its entry
   in waitingTasks replaces one with the same uuid. *)
| f_send f q1 c q2 h id sv :
    fl_queue f = q1 ++ c :: q2 → fc_from c = Some (h, id) → fl_srv f !! h = Some sv → sv_panic sv = false →
    free (q1 ++ fl_wait f ++ fl_void f) h id →
    fstep f (FSend c)
      (mkFleet (fl_srv f) (q1 ++ q2) (fl_net f ++ [c]) (fl_hand f) (fl_back f)
        (filter (λ c', entry c' ≠ entry c) (fl_wait f) ++ [c])
        (fl_void f ++ filter (λ c', entry c' = entry c) (fl_wait f)))
(* rrpc/client.go:148-159: the answer completes the call that is stored under its uuid.  (An answer whose
   uuid is not stored is dropped; here it may stay and arrive later: more schedules than the code has.) *)
| f_return f w1 c w2 b1 a b2 h id sv :
    fl_wait f = w1 ++ c :: w2 → fl_back f = b1 ++ a :: b2 → entry a = entry c →
    fc_from c = Some (h, id) → fl_srv f !! h = Some sv → sv_panic sv = false →
    fstep f (FReturn c) (mkFleet (fl_srv f) (fl_queue f) (fl_net f) (fl_hand f) (b1 ++ b2) (w1 ++ w2) (fl_void f))
(* rrpc/gc.go:16-30, client.go:54-57 *)
| f_timeout f w1 c w2 :
    fl_wait f = w1 ++ c :: w2 →
    fstep f (FTimeout c) (mkFleet (fl_srv f) (fl_queue f) (fl_net f) (fl_hand f) (fl_back f) (w1 ++ w2) (fl_void f)).

Inductive frun (f0 : fleet) : list flabel → fleet → Prop :=
| frun_nil : frun f0 [] f0
| frun_snoc tr l f f' : frun f0 tr f → fstep f l f' → frun f0 (tr ++ [l]) f'.

(** All servers have just started (server.go:83-101). *)
Definition fleet_start (servers : list string) : fleet :=
  mkFleet (list_to_map ((λ h, (h, NewMixServer)) <$> servers)) [] [] [] [] [] [].
End fleet.
