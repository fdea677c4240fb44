(** Model of the memory behind the key objects of internal/crypto/tibe: Poly (poly.go), ExponentPoly
    (exponent_poly.go), Node, shareableIbeScheme and VssShare (vss_ibe.go), whose fields are pointers to
    scalars and group elements that several objects, and the caller, may share.

    One goroutine uses the package (Model/Memo.v has the cache under concurrency).  A step is a partial
    function of its label: None means that the call panics, or that the caller names a pointer it does not
    hold.  A caller holds every pointer it was ever given, including those in the exported fields of an
    object it was given, and may write through each of them.  Not modelled: two Coefs slices sharing their
    array (a caller would have to assign one to the other itself), reaching the unexported parts of a Node
    by a type assertion. *)
From stdpp Require Import gmap.
From Verif.Base Require Import Base.
From Verif.Model Require Import TibeCodec.

(** What the code computes with the values behind the pointers. *)
Record keyops (K G D : Type) := KeyOps {
  gexp : K → G;                       (* ScalarMult(x, G1Generator()) *)
  pshare : list G → N → option G;     (* exponent_poly.go:35-55, the value stored for i; None: panic *)
  evalp : list K → Z → K;             (* poly.go:100-113 Eval *)
  idkey : K → bytes → D;              (* ScalarMult(x, g2Hash(id)) *)
  sigok : G → bytes → D → bool;       (* util.go:46-51 isValidSignature *)
  codecs : element_codecs K G }.
Arguments gexp {_ _ _} _. Arguments pshare {_ _ _} _. Arguments evalp {_ _ _} _.
Arguments idkey {_ _ _} _. Arguments sigok {_ _ _} _. Arguments codecs {_ _ _} _.

(** vss_ibe.go:186-190 VssShare: three pointers and an index. *)
Record vshare := mkVshare { v_exp : nat; v_index : Z; v_value : nat; v_mpk : nat }.
(** exponent_poly.go:13-17; the entries of the cache under the keys i (those under the decimal strings,
    the sync.Once objects, are present for the same i: lines 57-66). *)
Record expobj := mkExp { e_coefs : list (option nat); e_cache : gmap N nat }.
(** vss_ibe.go:170-174, 310-314: the scheme of a Node, its pointers P, PK.G1, S, and Shares. *)
Record nodeobj := mkNode { n_P : nat; n_PK : nat; n_S : nat; n_shares : gmap string vshare }.

Section mem.
Context {K G D : Type} `{EqDecision K} `{EqDecision G} (ops : keyops K G D).

(** Memory: scalars, group elements, objects; the next free address; the pointers the caller holds. *)
Record state := mkState {
  sc : gmap nat K; pt : gmap nat G;
  polys : gmap nat (list (option nat)); exps : gmap nat expobj; nodes : gmap nat nodeobj;
  next : nat; held : gset nat }.
Definition init : state := mkState ∅ ∅ ∅ ∅ ∅ 0 ∅.

Definition newScalar (v : K) (s : state) : state * nat :=
  (mkState (<[next s := v]> (sc s)) (pt s) (polys s) (exps s) (nodes s) (S (next s)) (held s), next s).
Definition newPoint (v : G) (s : state) : state * nat :=
  (mkState (sc s) (<[next s := v]> (pt s)) (polys s) (exps s) (nodes s) (S (next s)) (held s), next s).
Definition newPolyObj (cs : list (option nat)) (s : state) : state * nat :=
  (mkState (sc s) (pt s) (<[next s := cs]> (polys s)) (exps s) (nodes s) (S (next s)) (held s), next s).
Definition newExpObj (cs : list (option nat)) (s : state) : state * nat :=
  (mkState (sc s) (pt s) (polys s) (<[next s := mkExp cs ∅]> (exps s)) (nodes s) (S (next s)) (held s), next s).
Definition newNodeObj (n : nodeobj) (s : state) : state * nat :=
  (mkState (sc s) (pt s) (polys s) (exps s) (<[next s := n]> (nodes s)) (S (next s)) (held s), next s).
Definition setPoly (p : nat) (cs : list (option nat)) (s : state) : state :=
  mkState (sc s) (pt s) (<[p := cs]> (polys s)) (exps s) (nodes s) (next s) (held s).
Definition setExp (e : nat) (o : expobj) (s : state) : state :=
  mkState (sc s) (pt s) (polys s) (<[e := o]> (exps s)) (nodes s) (next s) (held s).
Definition setNode (n : nat) (o : nodeobj) (s : state) : state :=
  mkState (sc s) (pt s) (polys s) (exps s) (<[n := o]> (nodes s)) (next s) (held s).
Definition setScalar (l : nat) (v : K) (s : state) : state :=
  mkState (<[l := v]> (sc s)) (pt s) (polys s) (exps s) (nodes s) (next s) (held s).
Definition setPoint (l : nat) (v : G) (s : state) : state :=
  mkState (sc s) (<[l := v]> (pt s)) (polys s) (exps s) (nodes s) (next s) (held s).
(** The caller is given these pointers. *)
Definition give (ls : list nat) (s : state) : state :=
  mkState (sc s) (pt s) (polys s) (exps s) (nodes s) (next s) (list_to_set ls ∪ held s).

(** for i := range ...: Coefs[i] = &Scalar{}; Coefs[i].Set(v) *)
Fixpoint newScalars (vs : list K) (s : state) : state * list nat :=
  match vs with
  | [] => (s, [])
  | v :: vs => let '(s, l) := newScalar v s in let '(s, ls) := newScalars vs s in (s, l :: ls)
  end.
Fixpoint newPoints (vs : list G) (s : state) : state * list nat :=
  match vs with
  | [] => (s, [])
  | v :: vs => let '(s, l) := newPoint v s in let '(s, ls) := newPoints vs s in (s, l :: ls)
  end.
(** The values behind a slice of pointers; None: a nil pointer is dereferenced. *)
Definition deref {V} (h : gmap nat V) (cs : list (option nat)) : option (list V) :=
  mapM (λ c, l ← c; h !! l) cs.
Definition polyValue (s : state) (p : nat) : option (list K) := cs ← polys s !! p; deref (sc s) cs.
Definition expValue (s : state) (e : nat) : option (list G) := o ← exps s !! e; deref (pt s) (e_coefs o).

(** poly.go:145-153 Copy (the object itself is allocated by the callers). *)
Definition copyCoefs (p : nat) (s : state) : option (state * list nat) :=
  vs ← polyValue s p; Some (newScalars vs s).
(** poly.go:130-142 GetExponentPoly *)
Definition getExponentPoly (p : nat) (s : state) : option (state * (nat * list nat)) :=
  vs ← polyValue s p;
  let '(s, ls) := newPoints (gexp ops <$> vs) s in
  let '(s, e) := newExpObj (Some <$> ls) s in Some (s, (e, ls)).
(** exponent_poly.go:26-74 GetPublicShare: a pointer (nil if Coefs[0] is), Coefs[0] itself for i = 0. *)
Definition getPublicShare (e : nat) (i : N) (s : state) : option (state * option nat) :=
  o ← exps s !! e;
  if decide (i = 0%N) then c ← e_coefs o !! 0; Some (s, c)
  else match e_cache o !! i with
  | Some l => Some (s, Some l)
  | None =>
      cs ← deref (pt s) (e_coefs o);
      v ← pshare ops cs i;
      let '(s, l) := newPoint v s in
      Some (setExp e (mkExp (e_coefs o) (<[i := l]> (e_cache o))) s, Some l)
  end.
(** The cells left by a decoding loop: nil, a new element, a new element with unspecified content. *)
Fixpoint newCells (junk : G) (cs : list (cell G)) (s : state) : state * list (option nat) :=
  match cs with
  | [] => (s, [])
  | CNil :: cs => let '(s, ls) := newCells junk cs s in (s, None :: ls)
  | CVal v :: cs => let '(s, l) := newPoint v s in let '(s, ls) := newCells junk cs s in (s, Some l :: ls)
  | CJunk :: cs => let '(s, l) := newPoint junk s in let '(s, ls) := newCells junk cs s in (s, Some l :: ls)
  end.
(** exponent_poly.go:98-122 SetBytes; [junk] is what a failed G1.SetBytes leaves behind.  The cache is
    not touched. *)
Definition expSetBytes (e : nat) (bts : bytes) (junk : G) (s : state) : option (state * bool) :=
  o ← exps s !! e;
  if decide (length bts < 4) then Some (s, false)
  else
    let n := N.to_nat (be_dec (take 4 bts)) in
    if decide (length bts ≠ 4 + n * G1Size) then Some (s, false)
    else
      let '(ok, cells) := exp_loop (codecs ops) bts 0 n in
      let '(s, ls) := newCells junk cells s in
      Some (give (omap id ls) (setExp e (mkExp ls (e_cache o)) s), ok).
(** poly.go:175-197 Poly.SetBytes *)
Definition polySetBytes (p : nat) (bts : bytes) (s : state) : option (state * bool) :=
  _ ← polys s !! p;
  if decide (length bts < 4) then Some (s, false)
  else
    let n := N.to_nat (be_dec (take 4 bts)) in
    if decide (length bts ≠ 4 + n * ScalarSize) then Some (setPoly p (replicate n None) s, false)
    else
      let '(s, ls) := newScalars ((λ i, setSc (codecs ops) (chunk ScalarSize i bts)) <$> seq 0 n) s in
      Some (give ls (setPoly p (Some <$> ls) s), true).
(** exponent_poly.go:124-140, poly.go:199-215 Equal of two non-nil objects: the lengths, then pairwise up
    to the first difference. *)
Fixpoint equalLoop {V} `{EqDecision V} (h : gmap nat V) (a b : list (option nat)) : option bool :=
  match a, b with
  | [], _ => Some true
  | _ :: _, [] => None
  | x :: a, y :: b =>
      l ← x; u ← h !! l; l' ← y; v ← h !! l';
      if decide (u = v) then equalLoop h a b else Some false
  end.
Definition equalCoefs {V} `{EqDecision V} (h : gmap nat V) (a b : list (option nat)) : option bool :=
  if decide (length a ≠ length b) then Some false else equalLoop h a b.
(** poly.go:115-127 CreateShares *)
Definition createShares (vs : list K) (n : nat) : list K := (λ j, evalp ops vs (Z.of_nat j)) <$> seq 1 n.
(** vss_ibe.go:358-365 GetMasterPublicKey: the point is encoded and decoded into a new one; None: error. *)
Definition getMpk (o : nodeobj) (s : state) : option (state * nat) :=
  v ← pt s !! n_PK o; v' ← setG (codecs ops) (encG (codecs ops) v); Some (newPoint v' s).
(** vss_ibe.go:322-334, for the n-th share: [j] is its index. *)
Fixpoint vssLoop (o : nodeobj) (e : nat) (j : nat) (ls : list nat) (s : state) : option (state * list vshare) :=
  match ls with
  | [] => Some (s, [])
  | l :: ls =>
      '(s, m) ← getMpk o s;
      '(s, r) ← vssLoop o e (S j) ls s;
      Some (s, mkVshare e (Z.of_nat j) l m :: r)
  end.
(** vss_ibe.go:317-336 VssShares *)
Definition vssShares (o : nodeobj) (n : nat) (s : state) : option (state * list vshare) :=
  '(s, (e, cs)) ← getExponentPoly (n_P o) s;
  vs ← polyValue s (n_P o);
  let '(s, ls) := newScalars (createShares vs n) s in
  '(s, r) ← vssLoop o e 1 ls s;
  Some (give (cs ++ e :: ls ++ (v_mpk <$> r)) s, r).
(** vss_ibe.go:193-224, 338-349 NewNode, newShareableIbeScheme *)
Definition newNode (p : nat) (s : state) : option (state * nat) :=
  '(s, ls) ← copyCoefs p s;
  let '(s, P) := newPolyObj (Some <$> ls) s in
  l ← ls !! 0; v ← sc s !! l;
  let '(s, k) := newScalar v s in
  let '(s, g) := newPoint (gexp ops v) s in
  let '(s, n) := newNodeObj (mkNode P g k ∅) s in
  Some (give [n] s, n).

Inductive label :=
| LNewPoly (vs : list K)                       (* NewRandomPoly, with what it drew *)
| LCopy (p : nat) | LCoeffs (p : nat) | LSecret (p : nat) | LEval (p : nat) (i : Z)
| LGetExponentPoly (p : nat) | LPolySetBytes (p : nat) (bts : bytes) | LPolyEqual (p q : nat)
| LGetPublicShare (e : nat) (i : N) | LVerifyShare (e : nat) (i : N) (x : nat)
| LExpSetBytes (e : nat) (bts : bytes) (junk : G) | LExpEqual (e f : nat)
| LNewNode (p : nat) | LMpk (n : nat) | LVssShares (n : nat) (k : nat) | LDecrypter (n : nat) (id : bytes)
| LReceive (n : nat) (name : string) (v : vshare)
| LVote (n : nat) (name : string) (id : bytes)
| LValidate (n : nat) (name : string) (i : Z) (id : bytes) (sg : D)
| LEncryptFor (n : nat) (name : string)        (* EncryptFor: which master public key it uses *)
(** the caller writes through pointers it holds *)
| LWriteScalar (l : nat) (v : K) | LWritePoint (l : nat) (v : G)
| LWritePolyCoefs (p : nat) (ls : list (option nat)) | LWriteExpCoefs (e : nat) (ls : list (option nat)).

Inductive result :=
| RNone | RBool (b : bool) | RPtr (l : option nat) | RPtrs (ls : list nat)
| RShares (vs : list vshare) | RKey (d : D) | RVote (i : Z) (d : D) | RPoint (g : G).

(** Every pointer the caller passes is one it holds. *)
Definition holds (s : state) (ls : list nat) : bool := bool_decide (Forall (.∈ held s) ls).
Definition args (l : label) : list nat :=
  match l with
  | LNewPoly _ => []
  | LCopy p | LCoeffs p | LSecret p | LEval p _ | LGetExponentPoly p | LPolySetBytes p _ | LNewNode p => [p]
  | LPolyEqual p q | LExpEqual p q => [p; q]
  | LGetPublicShare e _ | LExpSetBytes e _ _ => [e]
  | LVerifyShare e _ x => [e; x]
  | LMpk n | LVssShares n _ | LDecrypter n _ | LVote n _ _ | LValidate n _ _ _ _ | LEncryptFor n _ => [n]
  | LReceive n _ v => [n; v_exp v; v_value v; v_mpk v]
  | LWriteScalar l _ | LWritePoint l _ => [l]
  | LWritePolyCoefs p ls | LWriteExpCoefs p ls => p :: omap id ls
  end.

Definition exec (l : label) (s : state) : option (state * result) :=
  match l with
  (** poly.go:57-74 *)
  | LNewPoly vs =>
      let '(s, ls) := newScalars vs s in
      let '(s, p) := newPolyObj (Some <$> ls) s in Some (give (p :: ls) s, RPtr (Some p))
  | LCopy p =>
      '(s, ls) ← copyCoefs p s;
      let '(s, q) := newPolyObj (Some <$> ls) s in Some (give (q :: ls) s, RPtr (Some q))
  (** poly.go:87-89 *)
  | LCoeffs p => '(s, ls) ← copyCoefs p s; Some (give ls s, RPtrs ls)
  (** poly.go:92-97 *)
  | LSecret p =>
      cs ← polys s !! p; c ← cs !! 0; l ← c; v ← sc s !! l;
      let '(s, k) := newScalar v s in Some (give [k] s, RPtr (Some k))
  | LEval p i =>
      vs ← polyValue s p;
      let '(s, k) := newScalar (evalp ops vs i) s in Some (give [k] s, RPtr (Some k))
  | LGetExponentPoly p => '(s, (e, ls)) ← getExponentPoly p s; Some (give (e :: ls) s, RPtr (Some e))
  | LPolySetBytes p bts => '(s, ok) ← polySetBytes p bts s; Some (s, RBool ok)
  | LPolyEqual p q =>
      a ← polys s !! p; b ← polys s !! q; r ← equalCoefs (sc s) a b; Some (s, RBool r)
  | LGetPublicShare e i =>
      '(s, c) ← getPublicShare e i s; Some (give (option_list c) s, RPtr c)
  (** exponent_poly.go:78-83 *)
  | LVerifyShare e i x =>
      v ← sc s !! x; '(s, c) ← getPublicShare e i s; l ← c; g ← pt s !! l;
      Some (s, RBool (bool_decide (gexp ops v = g)))
  | LExpSetBytes e bts junk => '(s, ok) ← expSetBytes e bts junk s; Some (s, RBool ok)
  | LExpEqual e f =>
      a ← exps s !! e; b ← exps s !! f; r ← equalCoefs (pt s) (e_coefs a) (e_coefs b); Some (s, RBool r)
  | LNewNode p => '(s, n) ← newNode p s; Some (s, RPtr (Some n))
  | LMpk n => o ← nodes s !! n; '(s, l) ← getMpk o s; Some (give [l] s, RPtr (Some l))
  | LVssShares n k => o ← nodes s !! n; '(s, r) ← vssShares o k s; Some (s, RShares r)
  (** vss_ibe.go:351-356 *)
  | LDecrypter n id => o ← nodes s !! n; k ← sc s !! n_S o; Some (s, RKey (idkey ops k id))
  (** vss_ibe.go:246-248 *)
  | LReceive n name v =>
      o ← nodes s !! n; Some (setNode n (mkNode (n_P o) (n_PK o) (n_S o) (<[name := v]> (n_shares o))) s, RNone)
  (** vss_ibe.go:227-243; no share: an error, RNone *)
  | LVote n name id =>
      o ← nodes s !! n;
      match n_shares o !! name with
      | None => Some (s, RNone)
      | Some v => k ← sc s !! v_value v; Some (s, RVote (v_index v) (idkey ops k id))
      end
  (** vss_ibe.go:250-266 with 205-219 *)
  | LValidate n name i id sg =>
      o ← nodes s !! n;
      match n_shares o !! name with
      | None => Some (s, RNone)
      | Some v =>
          '(s, c) ← getPublicShare (v_exp v) (Z.to_N (i mod 2 ^ 64)) s; l ← c; g ← pt s !! l;
          Some (s, RBool (sigok ops g id sg))
      end
  (** vss_ibe.go:176-183 *)
  | LEncryptFor n name =>
      o ← nodes s !! n;
      match n_shares o !! name with
      | None => Some (s, RNone)
      | Some v => g ← pt s !! v_mpk v; Some (s, RPoint g)
      end
  | LWriteScalar l v => _ ← sc s !! l; Some (setScalar l v s, RNone)
  | LWritePoint l v => _ ← pt s !! l; Some (setPoint l v s, RNone)
  | LWritePolyCoefs p ls =>
      _ ← polys s !! p;
      if decide (Forall (λ l, is_Some (sc s !! l)) (omap id ls)) then Some (setPoly p ls s, RNone) else None
  | LWriteExpCoefs e ls =>
      o ← exps s !! e;
      if decide (Forall (λ l, is_Some (pt s !! l)) (omap id ls)) then Some (setExp e (mkExp ls (e_cache o)) s, RNone)
      else None
  end.
Definition step (l : label) (s : state) : option (state * result) :=
  if holds s (args l) then exec l s else None.
Fixpoint run (ls : list label) (s : state) : option (state * list result) :=
  match ls with
  | [] => Some (s, [])
  | l :: ls => '(s, r) ← step l s; '(s, rs) ← run ls s; Some (s, r :: rs)
  end.
End mem.
Arguments init {_ _}.
