(** Model of stopping an rrpc server: Stop (rrpc/server.go:47-51), the three goroutines it waits for (the collector,
    rrpc/rrpc_server_stream.go:118-180; the two of the relay, rrpc/relay.go:65-99) and the goroutines it does not wait
    for: the handlers of CallStream (rrpc_server_stream.go:42-91) with their writers (56-63), the goroutine of each call
    (159-176), the writers of RelayStream (relay.go:114-120).

    Simplifications: messages to relays and clients are counted, not told apart; a request that RelayStream read is
    forwarded and noted in one step, before Stop (what happens in between is in Model/Relay.v); things that change nothing
    (a tick of the cleanup that finds nothing, a message from a server for no known call) are left out; direct calls are
    in Model/DirectServer.v.  merkleSign does not fail (C40). *)
From stdpp Require Import gmap.
From Verif.Base Require Import Base.

(** A channel and the goroutines that range over it and send on a stream: messages in it, whether it is closed, how many
    of the goroutines wait for a message and how many are in stream.Send with one. *)
Record pipe := mkPipe { p_len : nat; p_closed : bool; p_idle : nat; p_busy : nat }.
(** rrpc_server_stream.go:21, relay.go:113 *)
Definition pipe_cap : nat := 100.
Definition put (c : pipe) : pipe := mkPipe (S (p_len c)) (p_closed c) (p_idle c) (p_busy c).
(** There is room in a channel. *)
Definition has_room (c : pipe) : Prop := p_len c < pipe_cap.

(** A parcel: its call, the index of the relay that forwarded it (checked, 94-96), and whether its method is known
    (getServiceAndMethodDesc, 183). *)
Record parcel := mkParcel { pa_call : string; pa_index : nat; pa_known : bool }.

(** Stop: not called; gsrvr.Stop() done (48); the context cancelled, waiting (49-50); returned. *)
Inductive phase := SNone | SGrpc | SWait | SReturned.
(** The collector: at its select (129); at sendTo with an error for relay i (144); returned. *)
Inductive coll := CSelect | CError (i : nat) | CEnd.
(** The goroutine of a call: before the handler (160); sending to relay i (174); gone. *)
Inductive job := JRun (u : string) | JSend (u : string) (i : nat) | JGone.
(** A CallStream of relay i: at Recv (66); with an invalid parcel at sendTo (76); with a parcel at the select (84);
    returned. *)
Inductive rdstate := RdRecv | RdInvalid | RdParcel (p : parcel) | RdEnd.
Record reader := mkReader { r_index : nat; r_state : rdstate }.
(** The goroutine of relay.go:68-93: at its select; at respchan <- for client stream p; returned. *)
Inductive incoming := ISelect | IFwd (p : nat) | IEnd.

(** [v_back]: the channels to the relays; [v_front]: those to the clients; [v_tasks]: the collector's map, number of
    parcels by call; [v_table]: uuidToPeer; [v_clean]: the cleanup goroutine (95-99) is there; [v_crash]: the process
    panicked. *)
Record srv := mkSrv {
  v_phase : phase; v_coll : coll; v_queue : list parcel; v_tasks : gmap string nat; v_jobs : list job;
  v_readers : list reader; v_back : list pipe; v_inc : incoming; v_table : gmap string nat; v_front : list pipe;
  v_clean : bool; v_crash : bool }.

(** server.go:57-93 newServerService with n servers *)
Definition srv_init (n : nat) : srv :=
  mkSrv SNone CSelect [] ∅ [] [] (replicate n (mkPipe 0 false 0 0)) ISelect ∅ [] true false.

Definition set_phase (s : srv) (x : phase) : srv :=
  mkSrv x (v_coll s) (v_queue s) (v_tasks s) (v_jobs s) (v_readers s) (v_back s) (v_inc s) (v_table s) (v_front s) (v_clean s) (v_crash s).
Definition set_coll (s : srv) (x : coll) : srv :=
  mkSrv (v_phase s) x (v_queue s) (v_tasks s) (v_jobs s) (v_readers s) (v_back s) (v_inc s) (v_table s) (v_front s) (v_clean s) (v_crash s).
Definition set_queue (s : srv) (x : list parcel) : srv :=
  mkSrv (v_phase s) (v_coll s) x (v_tasks s) (v_jobs s) (v_readers s) (v_back s) (v_inc s) (v_table s) (v_front s) (v_clean s) (v_crash s).
Definition set_tasks (s : srv) (x : gmap string nat) : srv :=
  mkSrv (v_phase s) (v_coll s) (v_queue s) x (v_jobs s) (v_readers s) (v_back s) (v_inc s) (v_table s) (v_front s) (v_clean s) (v_crash s).
Definition set_jobs (s : srv) (x : list job) : srv :=
  mkSrv (v_phase s) (v_coll s) (v_queue s) (v_tasks s) x (v_readers s) (v_back s) (v_inc s) (v_table s) (v_front s) (v_clean s) (v_crash s).
Definition set_readers (s : srv) (x : list reader) : srv :=
  mkSrv (v_phase s) (v_coll s) (v_queue s) (v_tasks s) (v_jobs s) x (v_back s) (v_inc s) (v_table s) (v_front s) (v_clean s) (v_crash s).
Definition set_back (s : srv) (i : nat) (c : pipe) : srv :=
  mkSrv (v_phase s) (v_coll s) (v_queue s) (v_tasks s) (v_jobs s) (v_readers s) (<[i := c]> (v_back s)) (v_inc s) (v_table s) (v_front s) (v_clean s) (v_crash s).
Definition set_inc (s : srv) (x : incoming) : srv :=
  mkSrv (v_phase s) (v_coll s) (v_queue s) (v_tasks s) (v_jobs s) (v_readers s) (v_back s) x (v_table s) (v_front s) (v_clean s) (v_crash s).
Definition set_table (s : srv) (x : gmap string nat) : srv :=
  mkSrv (v_phase s) (v_coll s) (v_queue s) (v_tasks s) (v_jobs s) (v_readers s) (v_back s) (v_inc s) x (v_front s) (v_clean s) (v_crash s).
Definition set_front (s : srv) (x : list pipe) : srv :=
  mkSrv (v_phase s) (v_coll s) (v_queue s) (v_tasks s) (v_jobs s) (v_readers s) (v_back s) (v_inc s) (v_table s) x (v_clean s) (v_crash s).
Definition set_clean (s : srv) (x : bool) : srv :=
  mkSrv (v_phase s) (v_coll s) (v_queue s) (v_tasks s) (v_jobs s) (v_readers s) (v_back s) (v_inc s) (v_table s) (v_front s) x (v_crash s).
Definition set_crash (s : srv) : srv :=
  mkSrv (v_phase s) (v_coll s) (v_queue s) (v_tasks s) (v_jobs s) (v_readers s) (v_back s) (v_inc s) (v_table s) (v_front s) (v_clean s) true.

(** The context is cancelled. *)
Definition cancelled (s : srv) : bool := match v_phase s with SNone | SGrpc => false | _ => true end.

Inductive label :=
| LStop                 (* Stop is called *)
| LReturn               (* Stop returns *)
| LTask (u : string)    (* the collector has enough parcels of call u and starts its goroutine *)
| LHandler (u : string) (* the handler of call u runs *)
| LToRelay (i : nat)    (* a response goes out to relay i *)
| LToClient (p : nat)   (* a response goes out to the client of stream p *)
| LPanic                (* the process panics *)
| LQuiet.

Section stop.
(** [n]: number of servers; [q]: MinimalRelayedParcels. *)
Context (n q : nat).

(** A running process makes these steps; once gsrvr.Stop() closed the connections (grpc: it waits for no handler),
    Recv and Send of every stream fail. *)
Inductive istep (s : srv) : label → srv → Prop :=
(* server.go:48 *)
| T_stop : v_phase s = SNone → istep s LStop (set_phase s SGrpc)
(* 49 *)
| T_cancel : v_phase s = SGrpc → istep s LQuiet (set_phase s SWait)
(* 50 *)
| T_return : v_phase s = SWait → v_coll s = CEnd → v_inc s = IEnd → v_clean s = false → istep s LReturn (set_phase s SReturned)
(* rrpc_server_stream.go:137-138 *)
| C_done : v_coll s = CSelect → cancelled s = true → istep s LQuiet (set_coll s CEnd)
(* 130-135 *)
| C_tick u : v_coll s = CSelect → is_Some (v_tasks s !! u) → istep s LQuiet (set_tasks s (delete u (v_tasks s)))
(* 140-143 *)
| C_bad p rest : v_coll s = CSelect → v_queue s = p :: rest → pa_known p = false →
    istep s LQuiet (set_coll (set_queue s rest) (CError (pa_index p)))
(* 151-154 *)
| C_part p rest : v_coll s = CSelect → v_queue s = p :: rest → pa_known p = true →
    S (default 0 (v_tasks s !! pa_call p)) < q →
    istep s LQuiet (set_tasks (set_queue s rest) (<[pa_call p := S (default 0 (v_tasks s !! pa_call p))]> (v_tasks s)))
(* 156-159 *)
| C_full p rest : v_coll s = CSelect → v_queue s = p :: rest → pa_known p = true →
    q ≤ S (default 0 (v_tasks s !! pa_call p)) →
    istep s (LTask (pa_call p))
      (set_jobs (set_tasks (set_queue s rest) (delete (pa_call p) (v_tasks s))) (v_jobs s ++ [JRun (pa_call p)]))
(* 144, 29-31 *)
| C_send i c : v_coll s = CError i → v_back s !! i = Some c → p_closed c = false → has_room c →
    istep s LQuiet (set_coll (set_back s i (put c)) CSelect)
| C_send_panic i c : v_coll s = CError i → v_back s !! i = Some c → p_closed c = true → istep s LPanic (set_crash s)
(* 160, 204-214; the parcels may not decode (205-208) *)
| J_handler k u : v_jobs s !! k = Some (JRun u) → istep s (LHandler u) (set_jobs s (<[k := JSend u 0]> (v_jobs s)))
| J_undecodable k u : v_jobs s !! k = Some (JRun u) → istep s LQuiet (set_jobs s (<[k := JSend u 0]> (v_jobs s)))
(* 173-175 *)
| J_send k u i c : v_jobs s !! k = Some (JSend u i) → i < n → v_back s !! i = Some c → p_closed c = false → has_room c →
    istep s LQuiet (set_jobs (set_back s i (put c)) (<[k := JSend u (S i)]> (v_jobs s)))
| J_send_panic k u i c : v_jobs s !! k = Some (JSend u i) → i < n → v_back s !! i = Some c → p_closed c = true →
    istep s LPanic (set_crash s)
| J_end k u i : v_jobs s !! k = Some (JSend u i) → n ≤ i → istep s LQuiet (set_jobs s (<[k := JGone]> (v_jobs s)))
(* 42-57: relay i opens a stream *)
| W_connect i c : v_phase s = SNone → v_back s !! i = Some c →
    istep s LQuiet (set_readers (set_back s i (mkPipe (p_len c) (p_closed c) (S (p_idle c)) (p_busy c))) (v_readers s ++ [mkReader i RdRecv]))
(* 57 *)
| W_take i len cl idle busy : v_back s !! i = Some (mkPipe (S len) cl (S idle) busy) →
    istep s LQuiet (set_back s i (mkPipe len cl idle (S busy)))
(* 58 *)
| W_sent i len cl idle busy : v_phase s = SNone → v_back s !! i = Some (mkPipe len cl idle (S busy)) →
    istep s (LToRelay i) (set_back s i (mkPipe len cl (S idle) busy))
(* 58-61, 37-39: close of a closed channel panics *)
| W_fail i len idle busy : v_back s !! i = Some (mkPipe len false idle (S busy)) →
    istep s LQuiet (set_back s i (mkPipe len true idle busy))
| W_fail_panic i len idle busy : v_back s !! i = Some (mkPipe len true idle (S busy)) → istep s LPanic (set_crash s)
(* 57: the end of the range over a closed channel *)
| W_exit i idle busy : v_back s !! i = Some (mkPipe 0 true (S idle) busy) → istep s LQuiet (set_back s i (mkPipe 0 true idle busy))
(* 66, 75: a parcel comes in, valid or not *)
| R_recv r i p : v_phase s = SNone → v_readers s !! r = Some (mkReader i RdRecv) → pa_index p = i →
    istep s LQuiet (set_readers s (<[r := mkReader i (RdParcel p)]> (v_readers s)))
| R_recv_bad r i : v_phase s = SNone → v_readers s !! r = Some (mkReader i RdRecv) →
    istep s LQuiet (set_readers s (<[r := mkReader i RdInvalid]> (v_readers s)))
(* 67-73 *)
| R_end r i : v_readers s !! r = Some (mkReader i RdRecv) → istep s LQuiet (set_readers s (<[r := mkReader i RdEnd]> (v_readers s)))
(* 76-81 *)
| R_invalid r i c : v_readers s !! r = Some (mkReader i RdInvalid) → v_back s !! i = Some c → p_closed c = false → has_room c →
    istep s LQuiet (set_readers (set_back s i (put c)) (<[r := mkReader i RdRecv]> (v_readers s)))
| R_invalid_panic r i c : v_readers s !! r = Some (mkReader i RdInvalid) → v_back s !! i = Some c → p_closed c = true →
    istep s LPanic (set_crash s)
(* 87; server.go:78: capacity 1000 *)
| R_queue r i p : v_readers s !! r = Some (mkReader i (RdParcel p)) → length (v_queue s) < 1000 →
    istep s LQuiet (set_readers (set_queue s (v_queue s ++ [p])) (<[r := mkReader i RdRecv]> (v_readers s)))
(* 85-86 *)
| R_cancel r i p : v_readers s !! r = Some (mkReader i (RdParcel p)) → cancelled s = true →
    istep s LQuiet (set_readers s (<[r := mkReader i RdEnd]> (v_readers s)))
(* relay.go:74-75; 77-80: the coordinator was closed *)
| I_done : v_inc s = ISelect → cancelled s = true → istep s LQuiet (set_inc s IEnd)
| I_closed : v_inc s = ISelect → istep s LQuiet (set_inc s IEnd)
(* 82 *)
| I_take u p : v_inc s = ISelect → v_table s !! u = Some p →
    istep s LQuiet (set_inc (set_table s (delete u (v_table s))) (IFwd p))
(* 87 *)
| I_fwd p c : v_inc s = IFwd p → v_front s !! p = Some c → has_room c →
    istep s LQuiet (set_inc (set_front s (<[p := put c]> (v_front s))) ISelect)
(* 102-120: a client opens a stream *)
| F_open : v_phase s = SNone → istep s LQuiet (set_front s (v_front s ++ [mkPipe 0 false 1 0]))
(* 123-162: a request of the client of stream p, sent on or refused (150) *)
| F_request u p c : v_phase s = SNone → v_front s !! p = Some c → istep s LQuiet (set_table s (<[u := p]> (v_table s)))
| F_refuse p c : v_phase s = SNone → v_front s !! p = Some c → has_room c → istep s LQuiet (set_front s (<[p := put c]> (v_front s)))
(* 115-119; these channels are never closed *)
| F_take p len cl idle busy : v_front s !! p = Some (mkPipe (S len) cl (S idle) busy) →
    istep s LQuiet (set_front s (<[p := mkPipe len cl idle (S busy)]> (v_front s)))
| F_sent p len cl idle busy : v_phase s = SNone → v_front s !! p = Some (mkPipe len cl idle (S busy)) →
    istep s (LToClient p) (set_front s (<[p := mkPipe len cl (S idle) busy]> (v_front s)))
| F_fail p len cl idle busy : v_front s !! p = Some (mkPipe len cl idle (S busy)) →
    istep s LQuiet (set_front s (<[p := mkPipe len cl idle busy]> (v_front s)))
(* gc.go:34-44, 15-21: relaytask values have no age, any entry may go *)
| K_drop u : v_clean s = true → is_Some (v_table s !! u) → istep s LQuiet (set_table s (delete u (v_table s)))
| K_done : v_clean s = true → cancelled s = true → istep s LQuiet (set_clean s false).

(** Nothing runs after a crash. *)
Definition vstep (s : srv) (l : label) (s' : srv) : Prop := v_crash s = false ∧ istep s l s'.
Inductive vsteps : srv → list label → srv → Prop :=
| vs_nil s : vsteps s [] s
| vs_cons s l s1 ls s2 : vstep s l s1 → vsteps s1 ls s2 → vsteps s (l :: ls) s2.
End stop.
