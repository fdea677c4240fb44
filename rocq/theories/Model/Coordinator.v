(** Model of the connections of a coordinator: rrpc/coordinator.go (Dial, Close, AsyncSend) and
    rrpc/net_conns.go (newRelayConn, newServerConn, ServerConn).

    What gRPC does when a connection is made or closed is given by the environment. *)
From stdpp Require Import gmap.
From Verif.Base Require Import Base.
From Verif.Model Require Import Network.

(** A connection: the error its Close will return, if any. *)
Notation conn := (option code) (only parsing).
(** net_conns.go:51-101 newRelayConn: a connection or an error. *)
Inductive rdial := RConn (c : conn) | RFail (e : code).
(** net_conns.go:260-275 newServerConn: a connection; grpc.Dial's error (SFail); or, when the stream cannot be
    opened, (nil, cc.Close()) - an error only if closing fails (SFail), else nil and no error (SNil). *)
Inductive sdial := SConn (c : conn) | SNil | SFail (e : code).

(** coordinator.go:49-65: the connections (a nil ServerConn is None) and whether callResponseChan is closed. *)
Record coord := mkCoord {
  relayConns : gmap string conn;
  serverConns : gmap string (option conn);
  chanClosed : bool }.
Definition new_coord : coord := mkCoord ∅ ∅ false.

(** coordinator.go:108-130 Close.  [ro], [so]: the orders in which Go ranges over the two maps.  A second
    close of the channel (112) and a nil ServerConn (124) panic; err is what the last Close returned. *)
Fixpoint close_relays (m : gmap string conn) (order : list string) (err : option code) : option code :=
  match order with
  | [] => err
  | s :: order => close_relays m order (default None (m !! s))
  end.
Fixpoint close_servers (m : gmap string (option conn)) (order : list string) (err : option code) :
    outcome code (option code) :=
  match order with
  | [] => Ok err
  | s :: order => match m !! s with
                  | Some None => Panic
                  | Some (Some e) => close_servers m order e
                  | None => close_servers m order err
                  end
  end.
Definition Close (ro so : list string) (n : coord) : outcome code unit * coord :=
  if chanClosed n then (Panic, n)
  else (match close_servers (serverConns n) so (close_relays (relayConns n) ro None) with
        | Ok None => Ok tt
        | Ok (Some e) => Err e
        | Err e => Err e
        | Panic => Panic
        end, mkCoord (relayConns n) (serverConns n) true).

(** coordinator.go:250-267 Dial over the servers and what making their connections gives; [cl] is Close with
    the orders of that time. *)
Fixpoint dial_loop (cl : coord → outcome code unit * coord) (l : list (string * (rdial * sdial))) (n : coord) :
    outcome code unit * coord :=
  match l with
  | [] => (Ok tt, n)
  | (s, (r, sv)) :: l =>
      match r with
      | RFail _ => cl n
      | RConn c =>
          let n := mkCoord (<[s := c]> (relayConns n)) (serverConns n) (chanClosed n) in
          match sv with
          | SFail _ => cl n
          | SNil => dial_loop cl l (mkCoord (relayConns n) (<[s := None]> (serverConns n)) (chanClosed n))
          | SConn c => dial_loop cl l (mkCoord (relayConns n) (<[s := Some c]> (serverConns n)) (chanClosed n))
          end
      end
  end.
Definition DialAll (nt : Network) (cl : coord → outcome code unit * coord) (results : list (rdial * sdial)) (n : coord) :
    outcome code unit * coord := dial_loop cl (zip (Servers nt) results) n.

(** coordinator.go:140-153 AsyncSend (c.toSend of a nil connection panics).  The message goes to the
    connection of the host with that key. *)
Definition AsyncSend (nt : Network) (n : coord) (pk : bytes) : outcome code string :=
  let h := GetHostname nt pk in
  if String.eqb h "" then Err NotFound
  else match serverConns n !! h with
       | None => Err Internal
       | Some None => Panic
       | Some (Some _) => Ok h
       end.

(** net_conns.go:322-343, the goroutines that receive, with coordinator.go:112: each goroutine is at
    stream.Recv, at outputChan <- o, or has ended; the channel has capacity 100 (coordinator.go:102); sending
    on it, also being blocked in a send, panics once it is closed. *)
Section incoming.
Context {M : Type}.
Inductive rgo := GRecv | GSend (m : M) | GEnd.
Record ist := mkIst { gos : gmap nat rgo; ichan : list M; iclosed : bool; icrash : bool }.
Inductive ilabel := IRecv (i : nat) (m : M) | IEof (i : nat) | IPush (i : nat) (m : M) | ITake (m : M)
                  | IClose | IPanic (i : nat).
Definition icap : nat := 100.
Inductive istep : ilabel → ist → ist → Prop :=
| is_recv s i m : icrash s = false → gos s !! i = Some GRecv →
    istep (IRecv i m) s (mkIst (<[i := GSend m]> (gos s)) (ichan s) (iclosed s) false)
| is_eof s i : icrash s = false → gos s !! i = Some GRecv →
    istep (IEof i) s (mkIst (<[i := GEnd]> (gos s)) (ichan s) (iclosed s) false)
| is_push s i m : icrash s = false → gos s !! i = Some (GSend m) → iclosed s = false → length (ichan s) < icap →
    istep (IPush i m) s (mkIst (<[i := GRecv]> (gos s)) (ichan s ++ [m]) false false)
| is_panic s i m : icrash s = false → gos s !! i = Some (GSend m) → iclosed s = true →
    istep (IPanic i) s (mkIst (gos s) (ichan s) true true)
| is_take s m b : icrash s = false → ichan s = m :: b →
    istep (ITake m) s (mkIst (gos s) b (iclosed s) false)
| is_close s : icrash s = false → iclosed s = false →
    istep IClose s (mkIst (gos s) (ichan s) true false).
Inductive isteps : list ilabel → ist → ist → Prop :=
| is_nil s : isteps [] s s
| is_cons l ls s1 s2 s3 : istep l s1 s2 → isteps ls s2 s3 → isteps (l :: ls) s1 s3.
(** n connections made. *)
Definition iinit (n : nat) : ist := mkIst (set_to_map (λ i, (i, GRecv)) (set_seq (C := gset nat) 0 n)) [] false false.
End incoming.
Arguments rgo : clear implicits.
Arguments ist : clear implicits.
Arguments ilabel : clear implicits.

(** net_conns.go:253-258 send and 292-320, the goroutine that sends, with the callers of AsyncSend (the
    streams of a relay's clients, relay.go:141-147): queue toSend of capacity 100 (286), whether the
    goroutine is still there (it ends at an EOF, 312-314), and for each client the request it is sending, if
    any.  No Close. *)
Section outgoing.
Context {M : Type}.
Record oconn := mkOconn { oq : list M; oalive : bool }.
Record ost := mkOst { oconns : gmap nat oconn; ocli : gmap nat (nat * M) }.
Inductive olabel := OReq (i j : nat) (m : M)    (* client i's stream starts to send m to server j *)
                  | OQueue (i j : nat) (m : M)  (* toSend <- m; the stream goes on *)
                  | OWire (j : nat) (m : M)     (* stream.Send *)
                  | OLost (j : nat) (m : M)     (* stream.Send fails, not with an EOF: m is dropped *)
                  | OEof (j : nat) (m : M).     (* stream.Send fails with an EOF: the goroutine ends *)
Definition ocap : nat := 100.
Inductive ostep : olabel → ost → ost → Prop :=
| os_req s i j m : ocli s !! i = None → is_Some (oconns s !! j) →
    ostep (OReq i j m) s (mkOst (oconns s) (<[i := (j, m)]> (ocli s)))
| os_queue s i j m x : ocli s !! i = Some (j, m) → oconns s !! j = Some x → length (oq x) < ocap →
    ostep (OQueue i j m) s (mkOst (<[j := mkOconn (oq x ++ [m]) (oalive x)]> (oconns s)) (delete i (ocli s)))
| os_wire s j m b x : oconns s !! j = Some x → oalive x = true → oq x = m :: b →
    ostep (OWire j m) s (mkOst (<[j := mkOconn b true]> (oconns s)) (ocli s))
| os_lost s j m b x : oconns s !! j = Some x → oalive x = true → oq x = m :: b →
    ostep (OLost j m) s (mkOst (<[j := mkOconn b true]> (oconns s)) (ocli s))
| os_eof s j m b x : oconns s !! j = Some x → oalive x = true → oq x = m :: b →
    ostep (OEof j m) s (mkOst (<[j := mkOconn b false]> (oconns s)) (ocli s)).
Inductive osteps : list olabel → ost → ost → Prop :=
| os_nil s : osteps [] s s
| os_cons l ls s1 s2 s3 : ostep l s1 s2 → osteps ls s2 s3 → osteps (l :: ls) s1 s3.
Definition oinit (n : nat) : ost := mkOst (set_to_map (λ j, (j, mkOconn [] true)) (set_seq (C := gset nat) 0 n)) ∅.
End outgoing.
Arguments oconn : clear implicits.
Arguments ost : clear implicits.
Arguments olabel : clear implicits.
