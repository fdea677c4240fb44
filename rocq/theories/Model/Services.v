(** Model of rrpc/services.go. *)
From Coq Require Import Ascii.
From Verif.Base Require Import Base.
From stdpp Require Import gmap.

Local Open Scope string_scope.

Definition slash : ascii := "/"%char.

(** strings.LastIndex(s, "/") (None: -1). *)
Fixpoint LastIndex (s : string) : option nat :=
  match s with
  | "" => None
  | String x r => match LastIndex r with
                  | Some i => Some (S i)
                  | None => if Ascii.eqb x slash then Some 0 else None
                  end
  end.

(** name[:pos] and name[pos:] *)
Fixpoint str_take (n : nat) (s : string) : string :=
  match n, s with S n, String x r => String x (str_take n r) | _, _ => "" end.
Fixpoint str_drop (n : nat) (s : string) : string :=
  match n, s with S n, String _ r => str_drop n r | _, _ => s end.

(** services.go:28-30 *)
Definition drop_slash (name : string) : string :=
  match name with String x r => if Ascii.eqb x slash then r else name | "" => name end.

(** services.go:27-40 extractMethodInfo: (serviceName, methodName). *)
Definition extractMethodInfo (name : string) : outcome code (string * string) :=
  let name := drop_slash name in
  match LastIndex name with
  | None => Err InvalidArgument
  | Some pos => Ok (str_take pos name, str_drop (pos + 1) name)
  end.

Section services.
(** The server object and the handlers are abstract.  A nil *ServiceDesc in the map (a panic) is not
    modelled. *)
Context {srv hnd : Type}.

(** services.go:15-24 *)
Record MethodDesc := { md_name : string; md_handler : hnd }.
Record ServiceDesc := { sd_server : srv; sd_methods : gmap string MethodDesc }.
Notation Services := (gmap string ServiceDesc) (only parsing).

(** services.go:42-62 getServiceAndMethodDesc *)
Definition getServiceAndMethodDesc (s : Services) (name : string) :
    outcome code (ServiceDesc * MethodDesc) :=
  let! (svc, m) := extractMethodInfo name in
  match s !! svc with
  | None => Err InvalidArgument
  | Some service =>
      match sd_methods service !! m with
      | None => Err InvalidArgument
      | Some d => Ok (service, d)
      end
  end.

(** services.go:64-84 SingleServiceFromGRPCServiceDesc; [methods] is dsc.Methods.  The closure captures
    the loop variable of its own iteration (m := m, line 67). *)
Definition SingleServiceFromGRPCServiceDesc (serviceName : string) (methods : list (string * hnd))
    (hndl : srv) : Services :=
  {[ serviceName := {| sd_server := hndl;
       sd_methods := foldl (λ acc '(n, h), <[n := {| md_name := n; md_handler := h |}]> acc) ∅ methods |} ]}.
End services.
Arguments MethodDesc : clear implicits.
Arguments ServiceDesc : clear implicits.
