(** Model of the key material part of config/config.go: createConfigs, DKGSetup, vsspolynomialsSetup,
    CreateTIBEPublisher, CreateTIBENode.

    Random polynomials are arguments.  Mix names, peers and rrpc keys are not key material of the tibe
    package and are left out (the topology is modelled in Model/Topology.v). *)
From Coq Require Import ZArith List String.
From mathcomp Require Import all_ssreflect all_algebra.
From Verif.Model Require Import Tibe.
From Verif.Model Require TibeCodec.
Set Implicit Arguments.
Unset Strict Implicit.
Unset Printing Implicit Defensive.

(** A Go map from host names: entries with distinct keys. *)
Definition smap (T : Type) := seq (string * T).
Definition mset T (m : smap T) (k : string) (v : T) : smap T :=
  (k, v) :: [seq p <- m | negb (String.eqb p.1 k)].
Fixpoint mget T (m : smap T) (k : string) : option T :=
  match m with [::] => None | p :: m => if String.eqb p.1 k then Some p.2 else mget m k end.

(** config.pb.go: the fields of ServerConfig and IBEConfigs used for the tibe package. *)
Record server_config := ServerConfig {
  sc_hostname : string;
  sc_threshold : Z;
  sc_dkg_share : bytes;
  sc_dkg_keys : seq bytes;
  sc_poly : bytes;
  sc_expolys : smap bytes;
  sc_shares : smap bytes;
  sc_mpks : smap bytes }.

Section config.
Variables (S : setting) (cd : TibeCodec.element_codecs (sF S) (sG1 S)).
Notation F := (sF S).
Notation G1 := (sG1 S).

Definition share_pair (s : poly_share F) : Z * F := (ps_index s, ps_value s).

(** config.go:143-154 DKGSetup *)
Definition DKGSetup (n : nat) (dkg : seq F) : seq (poly_share F) * seq bytes :=
  let shrs := CreateShares dkg n in
  (shrs, [seq TibeCodec.PubkeyMarshal cd (ComputePublicKey s) | s <- shrs]).

(** uint32(polyDegree + 1) *)
Definition threshold32 (polyDegree : nat) : Z := (Z.of_nat polyDegree.+1 mod 2 ^ 32)%BZ.

(** config.go:101-121: what server i's polynomial contributes to the three maps of server j. *)
Definition vss_entry (poly : seq F) (n j : nat) : option (bytes * bytes * bytes) :=
  if NewNode poly is Some nd then
    let shrs := VssShares nd n in
    if List.nth_error shrs 0 is Some s0 then
      if List.nth_error shrs j is Some sj then
        Some (TibeCodec.ExpMarshal cd (vs_expoly s0), TibeCodec.ShareMarshal cd (share_pair (vs_share sj)),
              TibeCodec.MpkBytes cd (vs_mpk sj))
      else None
    else None
  else None.

(** config.go:62-124 createConfigs; None: a panic. *)
Fixpoint fill_maps (addrs : seq string) (polys : seq (seq F)) (n j : nat)
    (m : smap bytes * smap bytes * smap bytes) : option (smap bytes * smap bytes * smap bytes) :=
  match addrs, polys with
  | host :: addrs, p :: polys =>
      if vss_entry p n j is Some (ex, shr, mpk) then
        fill_maps addrs polys n j (mset m.1.1 host ex, mset m.1.2 host shr, mset m.2 host mpk)
      else None
  | _, _ => Some m
  end.
Definition server_config_of (addrs : seq string) (polyDegree : nat) (dkg : seq F) (polys : seq (seq F)) (j : nat) :
    option server_config :=
  let n := List.length addrs in
  let: (shrs, keys) := DKGSetup n dkg in
  match List.nth_error addrs j, List.nth_error shrs j, List.nth_error polys j, fill_maps addrs polys n j ([::], [::], [::]) with
  | Some host, Some shr, Some poly, Some (ex, sh, mpk) =>
      Some (ServerConfig host (threshold32 polyDegree) (TibeCodec.ShareMarshal cd (share_pair shr)) keys
              (TibeCodec.PolyMarshal cd poly) ex sh mpk)
  | _, _, _, _ => None
  end.

(** config.go:156-170 CreateTIBEPublisher.  None: decoding error (the codecs do not panic here). *)
Fixpoint decode_all A (dec : bytes -> option A) (l : seq bytes) : option (seq A) :=
  match l with
  | [::] => Some [::]
  | b :: l => if dec b is Some x then omap (cons x) (decode_all dec l) else None
  end.
Definition CreateTIBEPublisher (order : seq (public_key S) -> seq (public_key S)) (s : server_config) :
    option (published S) :=
  if decode_all (TibeCodec.PubkeySetBytes cd) (sc_dkg_keys s) is Some pkeys then
    if TibeCodec.ShareSetBytes cd (sc_dkg_share s) is Some priv then
      Some (NewPublisher order (Z.to_nat (sc_threshold s)) (PolyShare priv.1 priv.2) pkeys)
    else None
  else None.

(** The coefficients of a decoded polynomial; a nil or undecoded one makes Poly.Copy panic. *)
Fixpoint cells A (l : seq (TibeCodec.cell A)) : option (seq A) :=
  match l with
  | [::] => Some [::]
  | TibeCodec.CVal a :: l => omap (cons a) (cells l)
  | _ => None
  end.

(** config.go:183-203: the loop over the map of exponent polynomials, in the order [ex]. *)
Fixpoint receive_all (nd : node S) (ex shares mpks : smap bytes) : option (node S) :=
  match ex with
  | [::] => Some nd
  | (host, exb) :: ex =>
      let: (ok, coefs) := TibeCodec.ExpSetBytes cd [::] exb in
      if ~~ ok then None
      else if cells coefs is Some expoly then
        if TibeCodec.ShareSetBytes cd (odflt [::] (mget shares host)) is Some shr then
          if TibeCodec.MpkSetBytes cd (odflt [::] (mget mpks host)) is Some mpk then
            receive_all (ReceiveShare nd host (VssShare expoly (PolyShare shr.1 shr.2) mpk)) ex shares mpks
          else None
        else None
      else None
  end.
(** config.go:172-206 CreateTIBENode; [order] is the order of the range over the map.  None: an error or
    a panic of NewNode. *)
Definition CreateTIBENode (order : smap bytes -> smap bytes) (s : server_config) : option (node S) :=
  let: (ok, coefs) := TibeCodec.PolySetBytes cd [::] (sc_poly s) in
  if ~~ ok then None
  else if cells coefs is Some poly then
    if NewNode poly is Some nd then receive_all nd (order (sc_expolys s)) (sc_shares s) (sc_mpks s) else None
  else None.
End config.
