(** Model of ExponentPoly.GetPublicShare's cache (internal/crypto/tibe/exponent_poly.go:26-76) under
    concurrent callers: a sync.Map that holds the computed values under uint64 keys and one sync.Once per
    index under the decimal string of the index.

    [G] is the type of group elements, [coef0] = e.Coefs[0] (None: there are no coefficients, indexing
    panics) and [compute i] the body of f up to the Store (lines 36-53; Model/Tibe.v computePublicShare;
    None: it panics).  A panic crashes the program. *)
From stdpp Require Import gmap.
From Verif.Base Require Import Base.

(** Keys and values of e.cache (interface{} keys: a uint64 never equals a string). *)
Inductive ckey := KNum (i : N) | KStr (s : string).
Global Instance ckey_eq_dec : EqDecision ckey.
Proof. solve_decision. Defined.
Global Instance ckey_countable : Countable ckey.
Proof.
  refine (inj_countable' (λ k, match k with KNum i => inl i | KStr s => inr s end)
            (λ s, match s with inl i => KNum i | inr s => KStr s end) _); by intros [].
Defined.

Section memo.
Context {G : Type} (coef0 : option G) (compute : N → option G).

Inductive cval := CValue (v : G) | COnce (o : nat).
Inductive once := OIdle | ORunning | ODone.

(** Where a caller is inside GetPublicShare(i). *)
Inductive pc :=
| PLoad (i : N)               (* line 31: cache.Load(i) *)
| PGetOnce (i : N)            (* 58-59: LoadOrStore of the Once *)
| PDo (i : N) (o : nat)       (* 66: once.Do(f), waiting to enter *)
| PStore (i : N) (o : nat)    (* inside f, before the Store of line 54 *)
| PDone (i : N) (o : nat)     (* f returned, Do marks the Once *)
| PLast (i : N).              (* 68: the final cache.Load(i) *)

Record state := mkState { s_cache : gmap ckey cval; s_onces : list once; s_pcs : gmap nat pc; s_crashed : bool }.

Definition with_pc (s : state) (t : nat) (p : pc) : state :=
  mkState (s_cache s) (s_onces s) (<[t := p]> (s_pcs s)) (s_crashed s).
Definition finished (s : state) (t : nat) : state :=
  mkState (s_cache s) (s_onces s) (delete t (s_pcs s)) (s_crashed s).
Definition crash (s : state) : state := mkState (s_cache s) (s_onces s) (s_pcs s) true.

Inductive label := LTau | LCall (t : nat) (i : N) | LReturn (t : nat) (i : N) (v : G).

Inductive step : state → label → state → Prop :=
(* lines 26-29: a new call; index 0 returns Coefs[0] at once *)
| step_call s t i : s_crashed s = false → s_pcs s !! t = None → i ≠ 0%N →
    step s (LCall t i) (with_pc s t (PLoad i))
| step_call0 s t v : s_crashed s = false → s_pcs s !! t = None → coef0 = Some v →
    step s (LReturn t 0 v) s
| step_call0_panic s t : s_crashed s = false → s_pcs s !! t = None → coef0 = None → step s LTau (crash s)
(* 31-33 *)
| step_hit s t i v : s_crashed s = false → s_pcs s !! t = Some (PLoad i) →
    s_cache s !! KNum i = Some (CValue v) → step s (LReturn t i v) (finished s t)
| step_hit_cast s t i o : s_crashed s = false → s_pcs s !! t = Some (PLoad i) →
    s_cache s !! KNum i = Some (COnce o) → step s LTau (crash s)
| step_miss s t i : s_crashed s = false → s_pcs s !! t = Some (PLoad i) →
    s_cache s !! KNum i = None → step s LTau (with_pc s t (PGetOnce i))
(* 58-64: strconv.FormatUint(i, 10) is the decimal notation [pretty i] *)
| step_new_once s t i : s_crashed s = false → s_pcs s !! t = Some (PGetOnce i) →
    s_cache s !! KStr (pretty i) = None →
    step s LTau (mkState (<[KStr (pretty i) := COnce (length (s_onces s))]> (s_cache s))
                   (s_onces s ++ [OIdle]) (<[t := PDo i (length (s_onces s))]> (s_pcs s)) (s_crashed s))
| step_old_once s t i o : s_crashed s = false → s_pcs s !! t = Some (PGetOnce i) →
    s_cache s !! KStr (pretty i) = Some (COnce o) → step s LTau (with_pc s t (PDo i o))
| step_once_cast s t i v : s_crashed s = false → s_pcs s !! t = Some (PGetOnce i) →
    s_cache s !! KStr (pretty i) = Some (CValue v) → step s LTau (crash s)
(* 66: Do runs f in one caller, the others wait until it is done *)
| step_enter s t i o : s_crashed s = false → s_pcs s !! t = Some (PDo i o) → s_onces s !! o = Some OIdle →
    step s LTau (mkState (s_cache s) (<[o := ORunning]> (s_onces s)) (<[t := PStore i o]> (s_pcs s)) (s_crashed s))
| step_pass s t i o : s_crashed s = false → s_pcs s !! t = Some (PDo i o) → s_onces s !! o = Some ODone →
    step s LTau (with_pc s t (PLast i))
| step_store s t i o v : s_crashed s = false → s_pcs s !! t = Some (PStore i o) → compute i = Some v →
    step s LTau (mkState (<[KNum i := CValue v]> (s_cache s)) (s_onces s) (<[t := PDone i o]> (s_pcs s)) (s_crashed s))
| step_store_panic s t i o : s_crashed s = false → s_pcs s !! t = Some (PStore i o) → compute i = None →
    step s LTau (crash s)
| step_done s t i o : s_crashed s = false → s_pcs s !! t = Some (PDone i o) →
    step s LTau (mkState (s_cache s) (<[o := ODone]> (s_onces s)) (<[t := PLast i]> (s_pcs s)) (s_crashed s))
(* 68-73 *)
| step_return s t i v : s_crashed s = false → s_pcs s !! t = Some (PLast i) →
    s_cache s !! KNum i = Some (CValue v) → step s (LReturn t i v) (finished s t)
| step_return_missing s t i : s_crashed s = false → s_pcs s !! t = Some (PLast i) →
    s_cache s !! KNum i = None → step s LTau (crash s)
| step_return_cast s t i o : s_crashed s = false → s_pcs s !! t = Some (PLast i) →
    s_cache s !! KNum i = Some (COnce o) → step s LTau (crash s).

(** A new ExponentPoly: empty cache, no callers. *)
Definition init : state := mkState ∅ [] ∅ false.

(** Executions and the labels seen along them. *)
Inductive run : state → list label → state → Prop :=
| run_nil s : run s [] s
| run_step s ls s' l s'' : run s ls s' → step s' l s'' → run s (ls ++ [l]) s''.

(** Steps of calls already begun: everything but a new call. *)
Definition new_call (l : label) : bool :=
  match l with LCall _ _ => true | LReturn _ i _ => bool_decide (i = 0%N) | LTau => false end.
End memo.
Arguments state : clear implicits.
Arguments label : clear implicits.
Arguments cval : clear implicits.
