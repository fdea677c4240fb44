(** Model of the client's connections to its relays: rrpc/net_conns.go (RelayConn) with
    rrpc/coordinator.go:163-216 RobustRequest, as a transition system over all calls and connections.

    A message is the relay it comes from and whether it is a response (or the cleanup's notice).  What the
    caller does with the messages is in Model/Network.v (rr_loop): here it reads some and returns at some
    point.  Not modelled: Close, the proof stream, CancelRequest (called by nobody). *)
From stdpp Require Import gmap.
From Verif.Base Require Import Base.

(** Where a call is: not made; before liveTasks.Store of relay i (net_conns.go:147); before requests <- of
    relay i (148-154); in the loop of RobustRequest (coordinator.go:189-215); returned. *)
Inductive cphase := PNone | PStore (i : nat) | PQueue (i : nat) | PWait | PDone.
(** A call: its id, where it is, what is in its response channel (coordinator.go:169). *)
Record call := mkCall { ca_uuid : string; ca_phase : cphase; ca_buf : list (nat * bool) }.
(** receiveParcels: at stream.Recv (193), at task.response <- of call k (213), returned. *)
Inductive recver := RvIdle | RvHold (k : nat) | RvEnd.
(** The cleanup goroutine (90-95, gc.go): idle; has decided to drop the entry of id u, of call k, and is at
    its PrepareForDeletion (gc.go:27, net_conns.go:42-47); before Delete (gc.go:28). *)
Inductive cleaner := ClIdle | ClNotify (u : string) (k : nat) | ClDelete (u : string).
(** A connection: liveTasks, the channel requests (capacity 100, line 72), whether parcelStream is there. *)
Record rconn := mkRconn { rc_live : gmap string nat; rc_q : list nat; rc_send : bool;
                          rc_recv : recver; rc_clean : cleaner }.
Record cst := mkCst { rcs : nat → rconn; calls : nat → call }.
Definition upd {A} (f : nat → A) (i : nat) (x : A) : nat → A := λ j, if decide (i = j) then x else f j.
Definition qcap : nat := 100.

Definition set_live (x : rconn) (l : gmap string nat) := mkRconn l (rc_q x) (rc_send x) (rc_recv x) (rc_clean x).
Definition set_q (x : rconn) (q : list nat) (b : bool) := mkRconn (rc_live x) q b (rc_recv x) (rc_clean x).
Definition set_recv (x : rconn) (r : recver) := mkRconn (rc_live x) (rc_q x) (rc_send x) r (rc_clean x).
Definition set_clean (x : rconn) (c : cleaner) := mkRconn (rc_live x) (rc_q x) (rc_send x) (rc_recv x) c.
Definition set_phase (x : call) (p : cphase) := mkCall (ca_uuid x) p (ca_buf x).
Definition set_buf (x : call) (b : list (nat * bool)) := mkCall (ca_uuid x) (ca_phase x) b.

Inductive clabel :=
| CStart (k : nat) (u : string)
| CStore (k i : nat)
| CQueue (k i : nat)
| CWire (i k : nat)            (* the request of call k goes to relay i *)
| CLost (i k : nat)            (* its sending fails *)
| CEof (i k : nat)             (* its sending fails with an EOF: parcelStream ends *)
| CRecv (i : nat) (u : string) (* relay i answers call id u *)
| CRecvEnd (i : nat)
| CDeliver (i k : nat)         (* its response goes to call k *)
| CPick (i : nat) (u : string) (k : nat) (* the cleanup finds the entry *)
| CNotify (i k : nat)
| CDelete (i : nat) (u : string)
| CRead (k : nat) (m : nat * bool)
| CReturn (k : nat).

(** n relays. *)
Inductive cstep (n : nat) : clabel → cst → cst → Prop :=
(** client.go:242 RobustCall up to coordinator.go:169 *)
| cs_start s k u : ca_phase (calls s k) = PNone → 0 < n →
    cstep n (CStart k u) s (mkCst (rcs s) (upd (calls s) k (mkCall u (PStore 0) [])))
(** net_conns.go:147 *)
| cs_store s k i : ca_phase (calls s k) = PStore i →
    cstep n (CStore k i) s
      (mkCst (upd (rcs s) i (set_live (rcs s i) (<[ca_uuid (calls s k) := k]> (rc_live (rcs s i)))))
             (upd (calls s) k (set_phase (calls s k) (PQueue i))))
(** net_conns.go:151; coordinator.go:172-182: then the next relay *)
| cs_queue s k i : ca_phase (calls s k) = PQueue i → length (rc_q (rcs s i)) < qcap →
    cstep n (CQueue k i) s
      (mkCst (upd (rcs s) i (set_q (rcs s i) (rc_q (rcs s i) ++ [k]) (rc_send (rcs s i))))
             (upd (calls s) k (set_phase (calls s k) (if decide (S i < n) then PStore (S i) else PWait))))
(** net_conns.go:171-181 *)
| cs_wire s i k q : rc_send (rcs s i) = true → rc_q (rcs s i) = k :: q →
    cstep n (CWire i k) s (mkCst (upd (rcs s) i (set_q (rcs s i) q true)) (calls s))
| cs_lost s i k q : rc_send (rcs s i) = true → rc_q (rcs s i) = k :: q →
    cstep n (CLost i k) s (mkCst (upd (rcs s) i (set_q (rcs s i) q true)) (calls s))
| cs_eof s i k q : rc_send (rcs s i) = true → rc_q (rcs s i) = k :: q →
    cstep n (CEof i k) s (mkCst (upd (rcs s) i (set_q (rcs s i) q false)) (calls s))
(** net_conns.go:193-207; task.response is never nil *)
| cs_recv s i u k : i < n → rc_recv (rcs s i) = RvIdle → rc_live (rcs s i) !! u = Some k →
    cstep n (CRecv i u) s
      (mkCst (upd (rcs s) i (set_recv (set_live (rcs s i) (delete u (rc_live (rcs s i)))) (RvHold k))) (calls s))
| cs_recv_unknown s i u : i < n → rc_recv (rcs s i) = RvIdle → rc_live (rcs s i) !! u = None →
    cstep n (CRecv i u) s s
| cs_recv_end s i : rc_recv (rcs s i) = RvIdle →
    cstep n (CRecvEnd i) s (mkCst (upd (rcs s) i (set_recv (rcs s i) RvEnd)) (calls s))
(** net_conns.go:213; the channel has capacity len(requests) = n (coordinator.go:164, 169) *)
| cs_deliver s i k : rc_recv (rcs s i) = RvHold k → length (ca_buf (calls s k)) < n →
    cstep n (CDeliver i k) s
      (mkCst (upd (rcs s) i (set_recv (rcs s i) RvIdle))
             (upd (calls s) k (set_buf (calls s k) (ca_buf (calls s k) ++ [(i, true)]))))
(** gc.go:16-27: the entry's time is never set, so it always counts as expired (C58) *)
| cs_pick s i u k : rc_clean (rcs s i) = ClIdle → rc_live (rcs s i) !! u = Some k →
    cstep n (CPick i u k) s (mkCst (upd (rcs s) i (set_clean (rcs s i) (ClNotify u k))) (calls s))
| cs_notify s i u k : rc_clean (rcs s i) = ClNotify u k → length (ca_buf (calls s k)) < n →
    cstep n (CNotify i k) s
      (mkCst (upd (rcs s) i (set_clean (rcs s i) (ClDelete u)))
             (upd (calls s) k (set_buf (calls s k) (ca_buf (calls s k) ++ [(i, false)]))))
(** gc.go:28 *)
| cs_delete s i u : rc_clean (rcs s i) = ClDelete u →
    cstep n (CDelete i u) s
      (mkCst (upd (rcs s) i (set_clean (set_live (rcs s i) (delete u (rc_live (rcs s i)))) ClIdle)) (calls s))
(** coordinator.go:195 *)
| cs_read s k m b : ca_phase (calls s k) = PWait → ca_buf (calls s k) = m :: b →
    cstep n (CRead k m) s (mkCst (rcs s) (upd (calls s) k (set_buf (calls s k) b)))
(** coordinator.go:191-194, 202, 211 *)
| cs_return s k : ca_phase (calls s k) = PWait →
    cstep n (CReturn k) s (mkCst (rcs s) (upd (calls s) k (set_phase (calls s k) PDone))).

Inductive csteps (n : nat) : list clabel → cst → cst → Prop :=
| cs_nil s : csteps n [] s s
| cs_snoc ls l s1 s2 s3 : csteps n ls s1 s2 → cstep n l s2 s3 → csteps n (ls ++ [l]) s1 s3.
(** No calls, all connections up. *)
Definition cinit : cst := mkCst (λ _, mkRconn ∅ [] true RvIdle ClIdle) (λ _, mkCall "" PNone []).
