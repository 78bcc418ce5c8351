(* The vocabulary of the theorems about panics in user code in the sync cache. *)
From Verif Require Export SyncSpec CrashSpec SyncCrash.

(* as in CrashSpec.v; a panic in Clone is harmless, and so is that of a poisoned lock *)
Definition harmless_at (q : spoint) : bool := match q with SP q => harmless q | SClone | SPoisoned => true end.
Definition calm_at (q : spoint) : bool := match q with SP q => calm q | SClone | SPoisoned => true end.

Section synccrashspec.
Context {P : Params}.
Notation K := (K P). Notation V := (V P). Notation out := (out P). Notation contents := (contents P).
Implicit Types (k : K) (v : V) (c : pcache P) (m : scmd P) (d : contents).

(* The calls that only read take the lock of the shard for reading, and get_value_or_guard first
   looks the key up like them. Hashing, the loader, and the begin and the end of a lifecycle
   request run without the lock. Everything else runs under the write lock. *)
Definition may_poison m (q : spoint) : bool :=
  match m, q with
  | _, (SPoisoned | SP PHash | SP PBegin | SP PEnd | SP PLoader) => false
  | (SKey _ m | SAll m), SClone => false
  | (SKey _ m | SAll m), SP _ => negb (reads m)
  | _, _ => true
  end.

(* Comparing keys and cloning the value happen under either lock in the calls that load. *)
Definition must_poison m (q : spoint) : bool :=
  match m, q with
  | (SValueOrGuard _ _ _ | SGetOrInsert _ _ _), (SClone | SP PEq) => false
  | _, _ => may_poison m q
  end.

(* a new cache of 2^e shards *)
Definition pc_fresh (budget ghosts cap e : N) : pcache P :=
  PCache (replicate (N.to_nat (2 ^ e)) (PShard (sh_new budget ghosts cap) false [])) (2 ^ e - 1).
(* the cache of Sync.v in it, with no lock poisoned *)
Definition holds c (d : scache P) : Prop :=
  d = SCache (ps_shard <$> pc_shards c) (pc_mask c) ∧ ∀ j x, pc_shards c !! j = Some x → ps_poisoned x = false.
(* what has happened: calls that returned, and calls that panicked *)
Inductive pevent := Returned m (o : out) | Panicked m (q : spoint).
(* A cache after a history of calls that returned or panicked: with the locks of the standard
   library the panics may be anywhere, with those of parking_lot at harmless points. *)
Inductive lived (std : bool) (budget ghosts cap e : N) : list pevent → pcache P → Prop :=
  | lv_new : lived std budget ghosts cap e [] (pc_fresh budget ghosts cap e)
  | lv_call h c m c' o : lived std budget ghosts cap e h c → api m → (p_exec std c m).2 = Ok (c', o) →
      lived std budget ghosts cap e (h ++ [Returned m o]) c'
  | lv_panic h c m q c' : lived std budget ghosts cap e h c → api m → p_panicked std c m q c' →
      std = true ∨ harmless_at q = true → lived std budget ghosts cap e (h ++ [Panicked m q]) c'.

(* the value a call offers for a load *)
Definition offers m : option (K * V) :=
  match m with
  | SValueOrGuard _ k (SInsert v _) | SGetOrInsert _ k (Some v) => Some (k, v)
  | _ => None
  end.
(* remove, clear and an insert that is not refused do away with a load of k *)
Definition cancels (budget : N) m k : Prop :=
  match m with
  | SKey _ (CRemove k') => keqb P k k' = true
  | SKey _ (CInsert rs k' v _) => keqb P k k' = true ∧ ¬ refused budget rs k' v
  | SAll CClear => True
  | _ => False
  end.
(* begin_request panicked when v was about to be inserted for a load of k, and no call has done
   away with this load since *)
Definition left_behind (budget : N) (h : list pevent) k v : Prop := ∃ h1 m k' h2,
  h = h1 ++ Panicked m (SP PBegin) :: h2 ∧ offers m = Some (k', v) ∧ keqb P k k' = true ∧
  ∀ m' o, Returned m' o ∈ h2 → ¬ cancels budget m' k.

(* does the call concern the j-th shard? *)
Definition concerned (mask : N) m (j : nat) : Prop :=
  match s_key m with Some k => j = shard_idx mask k | None => True end.
(* the items of a shard after a call that panicked at q in this shard *)
Definition panic_left m (q : spoint) d d' : Prop :=
  if calm_at q then d' ≡ₚ d else
  match written (as_cmd m) with Some (k, v) => partway d k v d' | None => d' ≡ₚ d end.
(* A call that returns has done to a shard it concerns what C29 says. Only, where it would load
   a value for k, it may return a value left behind instead, and do nothing. *)
Definition p_does (cap budget : N) (h : list pevent) d m (o : out) d' : Prop :=
  s_does cap budget d m o d' ∨
  ∃ k v, s_key m = Some k ∧ (∀ mc, m ≠ SKey k mc) ∧ value_of k d = None ∧ left_behind budget h k v ∧
    o = plain (RVal (Some v)) ∧ d' ≡ₚ d.
(* the j-th shard is poisoned *)
Definition poisoned_at c (j : nat) : Prop := ∃ x, pc_shards c !! j = Some x ∧ ps_poisoned x = true.
(* What a call that panicked at q did to a shard x it panicked in, which is now x'. *)
Definition panic_does (std : bool) m (q : spoint) (x x' : pshard P) : Prop :=
  if ps_poisoned x then x' = x
  else if ps_poisoned x' then std = true ∧ may_poison m q = true
  else (std = true → must_poison m q = false) ∧ panic_left m q (sh_iter (ps_shard x)) (sh_iter (ps_shard x')).
(* What a call that returned o did to a shard x it concerns. *)
Definition call_does (cap budget : N) (h : list pevent) m (o : out) (x x' : pshard P) : Prop :=
  ps_poisoned x = false ∧ ps_poisoned x' = false ∧
  p_does cap budget h (sh_iter (ps_shard x)) m o (sh_iter (ps_shard x')).
End synccrashspec.
Arguments pevent : clear implicits.
