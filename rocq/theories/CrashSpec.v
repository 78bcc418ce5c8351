(* The vocabulary of the theorems about panics in user code. *)
From Verif Require Export PropSpec Crash.

(* A panic there leaves a cache that is as good as new ... *)
Definition harmless (p : point) : bool :=
  match p with
  | PHash | PEq | POwned | PLook | PRetain | PReserveGrow | PUpsertGrow | PPinned | PWeigh | PColdEvict
  | PNew | PReplacedEvict | PRefused | PLoader | PBegin | PEnd => true
  | PRefDrop | PRemove | PReserveInPlace | PInsertGrow | PInsertInPlace | PUpsertInPlace | PBefore
  | PReweigh | PEvHash | PHotEvict | PPromote | PFill | PReplaced => false
  end.
(* ... and there even with the items it had *)
Definition calm (p : point) : bool :=
  match p with
  | PHash | PEq | POwned | PRetain | PReserveGrow | PUpsertGrow | PNew | PLoader | PBegin => true
  | _ => false
  end.

Section crashspec.
Context {P : Params}.
Notation K := (K P). Notation V := (V P). Notation shard := (shard P). Notation contents := (contents P).
Implicit Types (s : shard) (k : K) (v : V) (c : contents).

(* The contents partway through a call that offers the pair (k, v): some of the evictions it
   may perform have happened, to the contents before the call, or to those with k removed, or
   to those with the new pair already in. *)
Definition partway c k v c' : Prop := ∃ c0 rs es rs', evicts rs c0 es rs' c' ∧
  (c0 ≡ₚ c ∨ c0 ≡ₚ del k c ∨
   ∃ kp v1, keqb P k kp = true ∧ (v1 = v ∨ ∃ rs0 rs1, before_evict P rs0 kp v = (rs1, v1)) ∧
     c0 ≡ₚ (kp, v1) :: del k c).

(* A cache built with the given budgets, after calls that returned, or panicked at harmless points. *)
Inductive survived (budget ghosts cap : N) : shard → Prop :=
  | sv_new : survived budget ghosts cap (sh_new budget ghosts cap)
  | sv_call s m s' o : survived budget ghosts cap s → exec s m = Ok (s', o) → survived budget ghosts cap s'
  | sv_panic s m p s' : survived budget ghosts cap s → panicked s m p s' → harmless p = true → survived budget ghosts cap s'.
(* What a caller can hold against a cache: len() or weight() is wrong, or the code itself panics
   in some sequence of calls. *)
Definition broken s : Prop :=
  sh_len s ≠ N.of_nat (length (sh_iter s)) ∨ (∃ w, sh_weight s = Ok w ∧ w ≠ wsum (sh_iter s)) ∨ ∃ h, run s h = Fail Panic.
End crashspec.
