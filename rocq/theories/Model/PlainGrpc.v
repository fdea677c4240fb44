(** Model of the plain gRPC transport: rrpc/grpc_wrapper.go, with the closures of rrpc/services.go:64-84, and of what
    grpc.Server does with a registered service (google.golang.org/grpc v1.51 server.go: register, handleStream), which
    is described here, not verified.

    A Go variable that a closure captures is a cell of a store: a closure is a reference to its cell and reads it when
    it runs.  The variable of a range loop is one cell for the whole loop (go.mod: go 1.18); [m := m] allocates a new
    one in each iteration.  Contexts, metadata and the message codec are left out: a call is a request that the
    handler decodes and a result. *)
From Coq Require Import Ascii.
From Verif.Base Require Import Base.
From Verif.Model Require Import Services.
From stdpp Require Import gmap.


(** A new variable with a value. *)
Definition alloc {A} (st : list A) (x : A) : list A * nat := (st ++ [x], length st).

(** What a caller gets: the status Unimplemented, the handler's result, or the server crashed. *)
Inductive answer (res : Type) := Unimplemented | Answer (r : res) | Crash.
Arguments Unimplemented {res}.
Arguments Answer {res} _.
Arguments Crash {res}.

Section plain.
(** Implementations of services; requests; results; interceptors; generated handlers and how they run (mixnet.pb.go:820:
    server, request, interceptor or nil). *)
Context {srv req res icpt raw : Type} (run : raw → srv → req → option icpt → res).

(** ** services.go *)

(** The store of grpc.MethodDesc variables; None: a variable before its first assignment. *)
Notation vars1 := (list (option (string * raw))) (only parsing).
(** services.go:66-72: one iteration; cell 0 is the variable of the loop. *)
Definition single_step (s : vars1 * gmap string (MethodDesc nat)) (x : string * raw) : vars1 * gmap string (MethodDesc nat) :=
  let '(st, mdscs) := s in
  let st := <[0 := Some x]> st in
  let '(st, c) := alloc st (default None (st !! 0)) in
  (st, match st !! c with
       | Some (Some (name, _)) => <[name := {| md_name := name; md_handler := c |}]> mdscs
       | _ => mdscs
       end).
(** services.go:64-84 SingleServiceFromGRPCServiceDesc, with its variables. *)
Definition SingleService (serviceName : string) (methods : list (string * raw)) (hndl : srv) :
    vars1 * gmap string (ServiceDesc srv nat) :=
  let '(st, mdscs) := foldl single_step ([None], ∅) methods in
  (st, {[ serviceName := {| sd_server := hndl; sd_methods := mdscs |} ]}).
(** services.go:70-72: the closure with cell c; no interceptor. *)
Definition call_single (st : vars1) (c : nat) (s : srv) (r : req) : answer res :=
  match st !! c with Some (Some (_, h)) => Answer (run h s r None) | _ => Crash end.

(** ** grpc_wrapper.go *)
Context {hnd : Type} (call : hnd → srv → req → answer res).

(** The store of *MethodDesc variables. *)
Notation vars2 := (list (option (MethodDesc hnd))) (only parsing).
(** grpc.MethodDesc: a name and a closure; None: the zero value. *)
Notation gmethod := (option (string * nat)) (only parsing).
(** grpc_wrapper.go:20-32: one iteration of the inner loop; [v]: the cell of methodDesc; [i]: the next free index. *)
Definition method_step (v : nat) (s : option (vars2 * nat * list gmethod)) (x : string * MethodDesc hnd) :
    option (vars2 * nat * list gmethod) :=
  match s with
  | None => None
  | Some (st, i, ms) =>
      let '(nm, d) := x in
      let st := <[v := Some d]> st in
      let '(st, c) := alloc st (default None (st !! v)) in
      if decide (i < length ms) then Some (st, i + 1, <[i := Some (nm, c)]> ms) else None
  end.
(** A registered service: grpc.serviceInfo. *)
Notation registered := (gmap string (srv * gmap string (option nat))) (only parsing).
(** grpc.Server.register: a second registration of a name is fatal. *)
Definition register (g : registered) (name : string) (s : srv) (ms : list gmethod) : option registered :=
  match g !! name with
  | Some _ => None
  | None => Some (<[name := (s, foldl (λ acc e, match e with Some (n, c) => <[n := Some c]> acc | None => <[""%string := None]> acc end)
                                      ∅ ms)]> g)
  end.
(** One iteration of the outer loop (grpc_wrapper.go:17-43), with the order in which the inner one meets the methods. *)
Definition service_step (s : option (vars2 * registered)) (x : string * srv * list (string * MethodDesc hnd)) :
    option (vars2 * registered) :=
  match s with
  | None => None
  | Some (st, g) =>
      let '(name, server, methods) := x in
      let '(st, v) := alloc st None in
      match foldl (method_step v) (Some (st, 0, replicate (length methods) None)) methods with
      | Some (st, _, ms) => g ← register g name server ms; Some (st, g)
      | None => None
      end
  end.
(** grpc_wrapper.go:15-46 newGrpcServer; None: the process ends. *)
Definition newGrpcServer (ranges : list (string * srv * list (string * MethodDesc hnd))) : option (vars2 * registered) :=
  foldl service_step (Some ([], ∅)) ranges.

(** grpc.Server.handleStream and processUnaryRPC, with the configured interceptor, then grpc_wrapper.go:23-25. *)
Definition handleStream (st : vars2) (g : registered) (i : option icpt) (name : string) (r : req) : answer res :=
  match extractMethodInfo name with
  | Ok (service, method) =>
      match g !! service with
      | None => Unimplemented
      | Some (s, methods) =>
          match methods !! method with
          | None => Unimplemented
          | Some None => Crash
          | Some (Some c) => match st !! c with Some (Some d) => call (md_handler d) s r | _ => Crash end
          end
      end
  | _ => Unimplemented
  end.

(** The other transport: server.go:121-142, rrpc_server_stream.go:183, 204-214; an unknown method is an error. *)
Definition rrpc_dispatch (services : gmap string (ServiceDesc srv hnd)) (name : string) (r : req) : answer res :=
  match getServiceAndMethodDesc services name with
  | Ok (s, d) => call (md_handler d) (sd_server s) r
  | _ => Unimplemented
  end.
End plain.

(** ** grpc_wrapper.go:65-74 AsyncDirectCall: the channel (capacity [cap]), and its goroutine: in DirectCall or sending
    (67), before close (68), ended. *)
Inductive apc := ASend | AClose | AEnd.
Record async (E : Type) := mkAsync { a_buf : list E; a_closed : bool; a_pc : apc }.
Arguments mkAsync {E}.
Arguments a_buf {E}.
Arguments a_closed {E}.
Arguments a_pc {E}.
(** 66 *)
Definition async_cap : nat := 1.
Definition async_init {E} : async E := mkAsync [] false ASend.
(** What a reader of the channel sees: a value, or that the channel is closed. *)
Inductive aread (E : Type) := GotValue (e : E) | GotClosed.
Arguments GotValue {E}.
Arguments GotClosed {E}.
(** [e]: what DirectCall returns. *)
Inductive astep {E} (e : E) : option (aread E) → async E → async E → Prop :=
| as_send b c : length b < async_cap → astep e None (mkAsync b c ASend) (mkAsync (b ++ [e]) c AClose)
| as_close b c : astep e None (mkAsync b c AClose) (mkAsync b true AEnd)
| as_read x b c p : astep e (Some (GotValue x)) (mkAsync (x :: b) c p) (mkAsync b c p)
| as_read_closed p : astep e (Some GotClosed) (mkAsync [] true p) (mkAsync [] true p).
Inductive asteps {E} (e : E) : list (aread E) → async E → async E → Prop :=
| ass_nil s : asteps e [] s s
| ass_quiet l s1 s2 s3 : asteps e l s1 s2 → astep e None s2 s3 → asteps e l s1 s3
| ass_read l s1 s2 r s3 : asteps e l s1 s2 → astep e (Some r) s2 s3 → asteps e (l ++ [r]) s1 s3.

(** grpc_wrapper.go:76-78, 54: RobustCall *)
Definition grpc_RobustCall {A : Type} (_ : A) : answer A := Unimplemented.
