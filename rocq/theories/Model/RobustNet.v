(** Model of robust calls in the whole network: rrpc/coordinator.go RobustRequest (163-217), rrpc/net_conns.go (the
    connections of a coordinator to relays and servers), rrpc/relay.go (RelayStream, relaySetup) and
    rrpc/rrpc_server_stream.go (CallStream, collector), with every goroutine and bounded channel between a call and its
    answer.

    There are [m] robust calls with different ids 0, ..., m-1; call u is made by client [cl u] to server [sv u], through
    the relays 0, ..., n-1.  Its i-th parcel and the i-th response travel through the places listed below.

    Simplifications: a channel is a bag (messages may overtake each other in it, so there are more behaviours than in
    the program); a gRPC stream is a channel of capacity [wire]; parcels and responses are valid (C51_accepted, C51_reply
    say that those of a client and a server that follow the code are); the periodic cleanups (C58, C80, Model/Gc.v) do not
    tick; no context is cancelled; no stream breaks (C67, C72, C79).  A process may be stalled: it then makes no more steps,
    see [settled].  With different ids, an entry of liveTasks (net_conns.go:147, 204) is there exactly from sendRequest
    to the one response of that relay, so the table is not in the state. *)
From stdpp Require Import list.
From Verif.Base Require Import Base.

(** Where the parcel is. *)
Inductive ploc :=
| QNot    (* not sent *)
| QReq    (* in RelayConn.requests, capacity 100 (net_conns.go:72) *)
| QReqH   (* taken by parcelStream (171), in stream.Send *)
| QUp     (* in the stream of the client to the relay *)
| QUpH    (* received by the relay (relay.go:123), before AsyncSend *)
| QOut    (* in ServerConn.toSend, capacity 100 (net_conns.go:286) *)
| QOutH   (* taken by the sending goroutine (308), in stream.Send *)
| QTo     (* in the stream of the relay to the server *)
| QToH    (* received by CallStream (rrpc_server_stream.go:66), before collectorTasks *)
| QColl   (* in collectorTasks, capacity 1000 (server.go:78) *)
| QLog.   (* taken by the collector *)
(** The relay's note of the call in uuidToPeer: none yet; between AsyncSend and Store (relay.go:141-158); stored; removed. *)
Inductive nloc := TNone | TPend | TIn | TGone.
(** Where the response is. *)
Inductive rloc :=
| PNot    (* not sent *)
| PBack   (* in the server's channel to the relay, capacity 100 (rrpc_server_stream.go:21) *)
| PBackH  (* taken by the writer of CallStream (57), in stream.Send *)
| PFrom   (* in the stream of the server to the relay *)
| PFromH  (* received by the relay's ServerConn (net_conns.go:328), before outputChan *)
| PInc    (* in callResponseChan, capacity 100 (coordinator.go:102) *)
| PIncH   (* taken by the relay (relay.go:77) and found in uuidToPeer, before respchan *)
| PFront  (* in the channel to the client, capacity 100 (relay.go:113) *)
| PFrontH (* taken by the writer of RelayStream (115), in server.Send *)
| PDown   (* in the stream of the relay to the client *)
| PDownH  (* received by receiveParcels (net_conns.go:193), before task.response *)
| PResp   (* in the call's channel, capacity n (coordinator.go:169) *)
| PRead   (* read by the call (195) *)
| PEarly. (* taken by the relay, not found in uuidToPeer, dropped (relay.go:82-85) *)
Record token := mkToken { tk_parcel : ploc; tk_note : nloc; tk_resp : rloc }.
(** The call: about to send parcel i (i = n: waiting for responses); returned. *)
Inductive call := KSend (i : nat) | KDone.
(** The server's goroutine of the call (rrpc_server_stream.go:159): none; running the handler; about to send response i. *)
Inductive job := JNone | JRun | JSend (i : nat).

(** [x_tok u i]: the parcel and response of call u and relay i; [x_count]: len(v.parcels) of the collector's task, 0 if
    there is none; [x_log s]: the parcels that the collector of s took; [x_reads]: the relays whose responses the call
    read. *)
Record net := mkNet {
  x_tok : nat → nat → token; x_call : nat → call; x_count : nat → nat; x_job : nat → job;
  x_log : nat → list (nat * nat); x_reads : nat → list nat }.

Definition upd {A} (f : nat → A) (k : nat) (x : A) : nat → A := λ j, if decide (j = k) then x else f j.
Definition upd2 {A} (f : nat → nat → A) (u i : nat) (x : A) : nat → nat → A := upd f u (upd (f u) i x).

(** Initially no call sent anything. *)
Definition net_init : net :=
  mkNet (λ _ _, mkToken QNot TNone PNot) (λ _, KSend 0) (λ _, 0) (λ _, JNone) (λ _, []) (λ _, []).

Definition set_tok (s : net) (u i : nat) (t : token) : net :=
  mkNet (upd2 (x_tok s) u i t) (x_call s) (x_count s) (x_job s) (x_log s) (x_reads s).
Definition set_call (s : net) (u : nat) (k : call) : net :=
  mkNet (x_tok s) (upd (x_call s) u k) (x_count s) (x_job s) (x_log s) (x_reads s).
Definition set_count (s : net) (u c : nat) : net :=
  mkNet (x_tok s) (x_call s) (upd (x_count s) u c) (x_job s) (x_log s) (x_reads s).
Definition set_job (s : net) (u : nat) (j : job) : net :=
  mkNet (x_tok s) (x_call s) (x_count s) (upd (x_job s) u j) (x_log s) (x_reads s).
Definition add_log (s : net) (v u i : nat) : net :=
  mkNet (x_tok s) (x_call s) (x_count s) (x_job s) (upd (x_log s) v (x_log s v ++ [(u, i)])) (x_reads s).
Definition add_read (s : net) (u i : nat) : net :=
  mkNet (x_tok s) (x_call s) (x_count s) (x_job s) (x_log s) (upd (x_reads s) u (x_reads s u ++ [i])).

Definition pl (s : net) (u i : nat) : ploc := tk_parcel (x_tok s u i).
Definition nl (s : net) (u i : nat) : nloc := tk_note (x_tok s u i).
Definition rl (s : net) (u i : nat) : rloc := tk_resp (x_tok s u i).
Definition set_pl (s : net) (u i : nat) (l : ploc) : net := set_tok s u i (mkToken l (nl s u i) (rl s u i)).
Definition set_nl (s : net) (u i : nat) (l : nloc) : net := set_tok s u i (mkToken (pl s u i) l (rl s u i)).
Definition set_rl (s : net) (u i : nat) (l : rloc) : net := set_tok s u i (mkToken (pl s u i) (nl s u i) l).

Global Instance ploc_eq : EqDecision ploc. Proof. solve_decision. Defined.
Global Instance nloc_eq : EqDecision nloc. Proof. solve_decision. Defined.
Global Instance rloc_eq : EqDecision rloc. Proof. solve_decision. Defined.

(** The processes: a client (its coordinator), a relay, a server. *)
Inductive proc := AClient (c : nat) | ARelay (i : nat) | AServer (v : nat).

Section robust_net.
(** [n]: number of relays; [q]: MinimalRelayedParcels; [wire]: how many messages a stream holds; [m]: number of calls. *)
Context (n q wire m : nat) (cl sv : nat → nat).

(** Number of calls with a property. *)
Definition calls (P : nat → Prop) `{∀ u, Decision (P u)} : nat := length (filter P (seq 0 m)).
(** Number of messages in each channel: by client and relay, by relay and server, ... *)
Definition len_req (s : net) (c i : nat) : nat := calls (λ u, cl u = c ∧ pl s u i = QReq).
Definition len_up (s : net) (c i : nat) : nat := calls (λ u, cl u = c ∧ pl s u i = QUp).
Definition len_out (s : net) (i v : nat) : nat := calls (λ u, sv u = v ∧ pl s u i = QOut).
Definition len_to (s : net) (i v : nat) : nat := calls (λ u, sv u = v ∧ pl s u i = QTo).
Definition len_coll (s : net) (v : nat) : nat := sum_list ((λ i, calls (λ u, sv u = v ∧ pl s u i = QColl)) <$> seq 0 n).
Definition len_back (s : net) (v i : nat) : nat := calls (λ u, sv u = v ∧ rl s u i = PBack).
Definition len_from (s : net) (v i : nat) : nat := calls (λ u, sv u = v ∧ rl s u i = PFrom).
Definition len_inc (s : net) (i : nat) : nat := calls (λ u, rl s u i = PInc).
Definition len_front (s : net) (i c : nat) : nat := calls (λ u, cl u = c ∧ rl s u i = PFront).
Definition len_down (s : net) (i c : nat) : nat := calls (λ u, cl u = c ∧ rl s u i = PDown).
Definition len_resp (s : net) (u : nat) : nat := length (filter (λ i, rl s u i = PResp) (seq 0 n)).

(** One step, with the process that makes it. *)
Inductive nstep (s : net) : proc → net → Prop :=
(* coordinator.go:172-182, net_conns.go:146-155 sendRequest *)
| N_send u i : u < m → x_call s u = KSend i → i < n → len_req s (cl u) i < 100 →
    nstep s (AClient (cl u)) (set_call (set_pl s u i QReq) u (KSend (S i)))
(* net_conns.go:171 parcelStream *)
| N_req u i : u < m → i < n → pl s u i = QReq → (∀ u', cl u' = cl u → pl s u' i ≠ QReqH) →
    nstep s (AClient (cl u)) (set_pl s u i QReqH)
(* 172 *)
| N_up u i : u < m → i < n → pl s u i = QReqH → len_up s (cl u) i < wire → nstep s (AClient (cl u)) (set_pl s u i QUp)
(* relay.go:123: one goroutine for each client, which also does AsyncSend and Store *)
| N_recv u i : u < m → i < n → pl s u i = QUp → (∀ u', cl u' = cl u → pl s u' i ≠ QUpH ∧ nl s u' i ≠ TPend) →
    nstep s (ARelay i) (set_pl s u i QUpH)
(* 141, coordinator.go:140-153, net_conns.go:253-258 send *)
| N_async u i : u < m → i < n → pl s u i = QUpH → len_out s i (sv u) < 100 →
    nstep s (ARelay i) (set_nl (set_pl s u i QOut) u i TPend)
(* relay.go:158 *)
| N_store u i : u < m → i < n → nl s u i = TPend → nstep s (ARelay i) (set_nl s u i TIn)
(* net_conns.go:308 *)
| N_out u i : u < m → i < n → pl s u i = QOut → (∀ u', sv u' = sv u → pl s u' i ≠ QOutH) →
    nstep s (ARelay i) (set_pl s u i QOutH)
(* 311 *)
| N_to u i : u < m → i < n → pl s u i = QOutH → len_to s i (sv u) < wire → nstep s (ARelay i) (set_pl s u i QTo)
(* rrpc_server_stream.go:66-82: one handler for each relay *)
| N_call u i : u < m → i < n → pl s u i = QTo → (∀ u', sv u' = sv u → pl s u' i ≠ QToH) →
    nstep s (AServer (sv u)) (set_pl s u i QToH)
(* 87 *)
| N_coll u i : u < m → i < n → pl s u i = QToH → len_coll s (sv u) < 1000 → nstep s (AServer (sv u)) (set_pl s u i QColl)
(* 140-154: the collector, not enough parcels yet *)
| N_part u i : u < m → i < n → pl s u i = QColl → S (x_count s u) < q →
    nstep s (AServer (sv u)) (set_count (add_log (set_pl s u i QLog) (sv u) u i) u (S (x_count s u)))
(* 156-159: enough *)
| N_full u i : u < m → i < n → pl s u i = QColl → q ≤ S (x_count s u) →
    nstep s (AServer (sv u)) (set_job (set_count (add_log (set_pl s u i QLog) (sv u) u i) u 0) u JRun)
(* 160-171 *)
| N_handler u : u < m → x_job s u = JRun → nstep s (AServer (sv u)) (set_job s u (JSend 0))
(* 173-175, 29-31 sendTo *)
| N_back u i : u < m → x_job s u = JSend i → i < n → len_back s (sv u) i < 100 →
    nstep s (AServer (sv u)) (set_job (set_rl s u i PBack) u (JSend (S i)))
(* 57 *)
| N_write u i : u < m → i < n → rl s u i = PBack → (∀ u', sv u' = sv u → rl s u' i ≠ PBackH) →
    nstep s (AServer (sv u)) (set_rl s u i PBackH)
(* 58 *)
| N_from u i : u < m → i < n → rl s u i = PBackH → len_from s (sv u) i < wire → nstep s (AServer (sv u)) (set_rl s u i PFrom)
(* net_conns.go:328 *)
| N_srecv u i : u < m → i < n → rl s u i = PFrom → (∀ u', sv u' = sv u → rl s u' i ≠ PFromH) →
    nstep s (ARelay i) (set_rl s u i PFromH)
(* 339 *)
| N_inc u i : u < m → i < n → rl s u i = PFromH → len_inc s i < 100 → nstep s (ARelay i) (set_rl s u i PInc)
(* relay.go:77-85: one goroutine for all; found, or not *)
| N_found u i : u < m → i < n → rl s u i = PInc → (∀ u', rl s u' i ≠ PIncH) → nl s u i = TIn →
    nstep s (ARelay i) (set_nl (set_rl s u i PIncH) u i TGone)
| N_early u i : u < m → i < n → rl s u i = PInc → (∀ u', rl s u' i ≠ PIncH) → nl s u i ≠ TIn →
    nstep s (ARelay i) (set_rl s u i PEarly)
(* 87 *)
| N_front u i : u < m → i < n → rl s u i = PIncH → len_front s i (cl u) < 100 → nstep s (ARelay i) (set_rl s u i PFront)
(* 115 *)
| N_fwrite u i : u < m → i < n → rl s u i = PFront → (∀ u', cl u' = cl u → rl s u' i ≠ PFrontH) →
    nstep s (ARelay i) (set_rl s u i PFrontH)
(* 116 *)
| N_down u i : u < m → i < n → rl s u i = PFrontH → len_down s i (cl u) < wire → nstep s (ARelay i) (set_rl s u i PDown)
(* net_conns.go:193-204 receiveParcels *)
| N_receive u i : u < m → i < n → rl s u i = PDown → (∀ u', cl u' = cl u → rl s u' i ≠ PDownH) →
    nstep s (AClient (cl u)) (set_rl s u i PDownH)
(* 213 *)
| N_resp u i : u < m → i < n → rl s u i = PDownH → len_resp s u < n → nstep s (AClient (cl u)) (set_rl s u i PResp)
(* coordinator.go:195-212: not enough responses yet; enough *)
| N_more u i : u < m → i < n → x_call s u = KSend n → rl s u i = PResp → S (length (x_reads s u)) < q →
    nstep s (AClient (cl u)) (add_read (set_rl s u i PRead) u i)
| N_done u i : u < m → i < n → x_call s u = KSend n → rl s u i = PResp → q ≤ S (length (x_reads s u)) →
    nstep s (AClient (cl u)) (set_call (add_read (set_rl s u i PRead) u i) u KDone).

(** A run, with the processes that make the steps. *)
Inductive nsteps : list proc → net → net → Prop :=
| ns_nil s : nsteps [] s s
| ns_snoc ps s1 p s2 s3 : nsteps ps s1 s2 → nstep s2 p s3 → nsteps (ps ++ [p]) s1 s3.
(** Only processes that are stalled could make a step. *)
Definition settled (live : proc → Prop) (s : net) : Prop := ∀ p s', nstep s p s' → ¬ live p.
End robust_net.
