(** Model of the worker pool of internal/ecc/reedsolomon.go: any number of concurrent AuthEncode and
    AuthReconstruct calls on one RSEncoder, its workers and Stop, as a transition system.

    [Ecc] says what a call computes from the order in which the answers of its 36 tasks arrive; here the
    answers come from workers that share two bounded queues.  Simplification: slices are values (what the
    calls do to the memory of their arguments is in Model/EccMem.v). *)
From stdpp Require Import gmap.
From Verif.Base Require Import Base.
From Verif.Model Require Import Ecc.

(** The arguments of a call: AuthEncode (40) and AuthReconstruct (102). *)
Inductive job := JEncode (data : bytes) | JDecode (shards : list (list shard)) (dataSize : Z).

(** What it returns. *)
Inductive answer :=
| AEncode (r : outcome ecc_error (list (option (list shard))))
| ADecode (r : outcome ecc_error bytes).

(** 194-198 encodeTaskRequest and 206-211 decodeTaskRequest, without index and channel. *)
Inductive work := WEncode (chunk : bytes) | WDecode (shards : list shard) (size : nat).
(** 200-204 encodeTaskResponse and 213-217 decodeTaskResponse, without the index (None: err is not nil). *)
Inductive result := REncode (r : option (list shard)) | RDecode (r : option bytes).

(** A request: the channel it will be answered on is that of the call [t_call]. *)
Record task := mkTask { t_call : nat; t_index : nat; t_work : work }.

(** The variables of the receiving loops: chunkShards (47), data (109). *)
Inductive local := LEncode (chunkShards : list (option (list shard))) | LDecode (data : bytes).

(** Where a call is: about to send request i (50-67, 112-134), about to receive answer i (69-79, 136-147), or
    returned. *)
Inductive epc := PSend (i : nat) | PRecv (i : nat) (v : local) | PDone (a : answer).
(** [ec_chan]: the responseChan of the call, of capacity NumChunks (48, 111). *)
Record ecall := mkECall { ec_job : job; ec_pc : epc; ec_chan : list (nat * result) }.

(** [e_enc], [e_dec]: the two queues.  [e_busy]: requests workers are working on.  [e_alive]: workers that have
    not returned.  [e_stopped]: the context is cancelled.  [e_crashed]: a call panicked. *)
Record estate := mkE {
  e_calls : gmap nat ecall;
  e_enc : list task;
  e_dec : list task;
  e_busy : list task;
  e_alive : nat;
  e_stopped : bool;
  e_crashed : bool }.

Section pool.
Context (c : rs_code).

(** 103: the size of the buffer of AuthReconstruct (make panics on a negative one, 109).  Overflow of int is
    left out. *)
Definition buf_size (dataSize : Z) : nat := Z.to_nat (dataSize + Z.of_nat NumChunks).

(** 51-61 and 113-128: the content of request i; [None]: shards[i] is out of range. *)
Definition request (j : job) (i : nat) : option work :=
  match j with
  | JEncode data => Some (WEncode (chunk_of (data ++ zeros) i))
  | JDecode shards dataSize =>
      let '(s, e) := segment (buf_size dataSize) i in
      sh ← shards !! i; Some (WDecode sh (e - s))
  end.
(** 47, 109 *)
Definition start_local (j : job) : local :=
  match j with
  | JEncode _ => LEncode (replicate NumChunks None)
  | JDecode _ dataSize => LDecode (replicate (buf_size dataSize) Byte.x00)
  end.
(** 63-65, 76-77, 131-133, 144-145: errRSEncoderStopped *)
Definition stopped_answer (j : job) : answer :=
  match j with JEncode _ => AEncode (Err EStopped) | JDecode _ _ => ADecode (Err EStopped) end.

(** 222-237: the two cases of the worker's select that run a request. *)
Definition run_work (w : work) : result :=
  match w with
  | WEncode chunk => REncode (authEncode c chunk)
  | WDecode shards size => RDecode (authReconstruct c shards size)
  end.

(** 71-75, 138-143: one received answer; [inl]: the call returns.  (The two mixed cases do not occur: a call's
    channel has the type of its answers.) *)
Definition receive (v : local) (i : nat) (r : result) : answer + local :=
  match v, r with
  | LEncode acc, REncode (Some sh) => inr (LEncode (<[i := Some sh]> acc))
  | LDecode data, RDecode (Some chunk) =>
      let '(s, e) := segment (length data) i in inr (LDecode (copy_into data s e chunk))
  | LEncode _, _ => inl (AEncode (Err EShortData))
  | LDecode _, _ => inl (ADecode (Err EReconstruct))
  end.
(** 80, 149: the value returned after the loop; data[:len(data)-len(zeros)] may panic. *)
Definition finish (v : local) : option answer :=
  match v with
  | LEncode acc => Some (AEncode (Ok acc))
  | LDecode data => if decide (length data < NumChunks) then None else Some (ADecode (Ok (take (length data - NumChunks) data)))
  end.

(** 178-190, with runtime.NumCPU() = cpus. *)
Definition NewRSEncoderDecoder (cpus : nat) : estate := mkE ∅ [] [] [] cpus false false.
Definition queue_cap (cpus : nat) : nat := NumChunks * cpus.

Definition with_call (s : estate) (k : nat) (x : ecall) : estate :=
  mkE (<[k := x]> (e_calls s)) (e_enc s) (e_dec s) (e_busy s) (e_alive s) (e_stopped s) (e_crashed s).
Definition set_pc (x : ecall) (p : epc) : ecall := mkECall (ec_job x) p (ec_chan x).
Definition crash (s : estate) : estate :=
  mkE (e_calls s) (e_enc s) (e_dec s) (e_busy s) (e_alive s) (e_stopped s) true.
Definition is_encode (w : work) : bool := match w with WEncode _ => true | WDecode _ _ => false end.
(** The queue a request goes to (62, 130). *)
Definition queue_of (s : estate) (w : work) : list task := if is_encode w then e_enc s else e_dec s.
Definition enqueue (s : estate) (t : task) : estate :=
  if is_encode (t_work t)
  then mkE (e_calls s) (e_enc s ++ [t]) (e_dec s) (e_busy s) (e_alive s) (e_stopped s) (e_crashed s)
  else mkE (e_calls s) (e_enc s) (e_dec s ++ [t]) (e_busy s) (e_alive s) (e_stopped s) (e_crashed s).
Definition after_send (j : job) (i : nat) : epc :=
  if decide (NumChunks ≤ S i) then PRecv 0 (start_local j) else PSend (S i).

(** What happens: a new call, Stop, or a step of the calls and workers. *)
Inductive elabel := LNew (k : nat) (j : job) | LStop | LWork.

(** Nothing runs after a crash. *)
Inductive estep (cpus : nat) (s : estate) : elabel → estate → Prop :=
| E_new k j :
    e_crashed s = false → e_calls s !! k = None →
    match j with JEncode _ => True | JDecode _ n => (0 ≤ n + Z.of_nat NumChunks)%Z end →
    estep cpus s (LNew k j) (with_call s k (mkECall j (PSend 0) []))
| E_new_panic k shards n :
    e_crashed s = false → e_calls s !! k = None → (n + Z.of_nat NumChunks < 0)%Z →
    estep cpus s (LNew k (JDecode shards n)) (crash s)
| E_send k x i w :
    e_crashed s = false → e_calls s !! k = Some x → ec_pc x = PSend i → request (ec_job x) i = Some w →
    length (queue_of s w) < queue_cap cpus →
    estep cpus s LWork (enqueue (with_call s k (set_pc x (after_send (ec_job x) i))) (mkTask k i w))
| E_send_panic k x i :
    e_crashed s = false → e_calls s !! k = Some x → ec_pc x = PSend i → request (ec_job x) i = None →
    estep cpus s LWork (crash s)
| E_send_stop k x i :
    e_crashed s = false → e_calls s !! k = Some x → ec_pc x = PSend i → is_Some (request (ec_job x) i) →
    e_stopped s = true →
    estep cpus s LWork (with_call s k (set_pc x (PDone (stopped_answer (ec_job x)))))
(* 221-235: an idle worker receives from one of the queues; when the context is cancelled too, select may
   choose any ready case *)
| E_take_enc t q :
    e_crashed s = false → e_enc s = t :: q → length (e_busy s) < e_alive s →
    estep cpus s LWork (mkE (e_calls s) q (e_dec s) (e_busy s ++ [t]) (e_alive s) (e_stopped s) (e_crashed s))
| E_take_dec t q :
    e_crashed s = false → e_dec s = t :: q → length (e_busy s) < e_alive s →
    estep cpus s LWork (mkE (e_calls s) (e_enc s) q (e_busy s ++ [t]) (e_alive s) (e_stopped s) (e_crashed s))
(* the worker sends the answer, if there is room for it *)
| E_finish b1 t b2 x :
    e_crashed s = false → e_busy s = b1 ++ t :: b2 → e_calls s !! t_call t = Some x → length (ec_chan x) < NumChunks →
    estep cpus s LWork
      (mkE (<[t_call t := mkECall (ec_job x) (ec_pc x) (ec_chan x ++ [(t_index t, run_work (t_work t))])]> (e_calls s))
           (e_enc s) (e_dec s) (b1 ++ b2) (e_alive s) (e_stopped s) (e_crashed s))
| E_recv k x n v i r rest :
    e_crashed s = false → e_calls s !! k = Some x → ec_pc x = PRecv n v → ec_chan x = (i, r) :: rest →
    estep cpus s LWork
      match receive v i r with
      | inl a => with_call s k (mkECall (ec_job x) (PDone a) rest)
      | inr v' =>
          if decide (NumChunks ≤ S n) then
            match finish v' with
            | Some a => with_call s k (mkECall (ec_job x) (PDone a) rest)
            | None => crash s
            end
          else with_call s k (mkECall (ec_job x) (PRecv (S n) v') rest)
      end
| E_recv_stop k x n v :
    e_crashed s = false → e_calls s !! k = Some x → ec_pc x = PRecv n v → e_stopped s = true →
    estep cpus s LWork (with_call s k (set_pc x (PDone (stopped_answer (ec_job x)))))
(* 168-170 *)
| E_stop :
    e_crashed s = false →
    estep cpus s LStop (mkE (e_calls s) (e_enc s) (e_dec s) (e_busy s) (e_alive s) true (e_crashed s))
(* 238-239 *)
| E_exit :
    e_crashed s = false → e_stopped s = true → length (e_busy s) < e_alive s →
    estep cpus s LWork (mkE (e_calls s) (e_enc s) (e_dec s) (e_busy s) (e_alive s - 1) (e_stopped s) (e_crashed s)).

Inductive esteps (cpus : nat) : estate → list elabel → estate → Prop :=
| es_refl s : esteps cpus s [] s
| es_step s l s1 ls s2 : estep cpus s l s1 → esteps cpus s1 ls s2 → esteps cpus s (l :: ls) s2.
End pool.
