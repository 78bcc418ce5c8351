(* The vocabulary of the theorems about panics in user code in concurrent use. *)
From stdpp Require Import prelude list.
From Verif Require Export ConcPanic SyncCrashSpec ConcPropSpec.

Section concpanicspec.
Context {P : Params}.
Notation K := (K P). Notation V := (V P).
Notation shard := (shard P). Notation sys := (sys P).
Implicit Types (s : shard) (k : K) (v : V) (a b : nat) (l : loc) (j : nat) (y : sys).

(* what happens: a step of the system, or a panic at q in agent a *)
Inductive happening := Step (lb : label P) | Panics a (q : spoint).
(* an execution with panics at harmless points *)
Inductive eventful (dbg : bool) : sys → list happening → sys → Prop :=
  | ef_nil y : eventful dbg y [] y
  | ef_step y hs y1 lb y2 : eventful dbg y hs y1 → cstep dbg y1 lb = Some (Ok y2) → eventful dbg y (hs ++ [Step lb]) y2
  | ef_panic y hs y1 a q y2 : eventful dbg y hs y1 → (q, y2) ∈ booms y1 a → harmless_at q = true →
      eventful dbg y (hs ++ [Panics a q]) y2.

(* the load id of k is pending in s: the hash table leads to its entry *)
Definition pending s (id : N) k : Prop := ∃ t q,
  entry_at s t = Ok (Placeholder q) ∧ t ∈ (tpairs (sh_map s)).*2 ∧ ph_id (p_shared q) = id ∧ p_key q = k.
(* d is what the sequential specification (SyncSpec.v) sees of s *)
Definition shows s (d : sst P) : Prop :=
  ss_items d = sh_iter s ∧ (∀ id k, ss_pend d id = Some k ↔ pending s id k) ∧ ss_next d = sh_nph s.

(* the pair that a critical section offers to the shard s *)
Definition offered s (z : sect P) k v : Prop :=
  match z with
  | XCmd m => written m = Some (k, v)
  | XFill _ p _ v' _ => pending s (ph_id p) k ∧ v' = v
  | _ => False
  end.
(* What a panic at q in the critical section z does to the shard: nothing to its items, or it stops
   on the way to what the section would do with the pair it offers; no pending load appears. *)
Definition panic_hits (q : spoint) (z : sect P) s s' : Prop :=
  (sh_iter s' ≡ₚ sh_iter s ∨ calm_at q = false ∧ ∃ k v, offered s z k v ∧ partway (sh_iter s) k v (sh_iter s')) ∧
  (∀ id k, pending s' id k → pending s id k).
(* What a step does to a shard: nothing, or one critical section. *)
Definition one_section (cap budget : N) j y y' s s' : Prop := ∃ d d', shows s d ∧ shows s' d' ∧
  ((sections j (y_log y') = sections j (y_log y) ∧
    ss_items d' = ss_items d ∧ same_pend (ss_pend d') (ss_pend d) ∧ ss_next d' = ss_next d) ∨
   (∃ o r, sections j (y_log y') = sections j (y_log y) ++ [(o, r)] ∧ sdoes cap budget d o r d')).
(* Why a step fails, as in ConcPropSpec.v, runs_out *)
Definition gives_out (budget cap : N) y (lb : label P) (f : fail) : Prop :=
  ∃ a ag j s, lb = Go a ∧ y_agents y !! a = Some ag ∧ sc_shards (y_cache y) !! j = Some s ∧
    (f = SlabFull ∧ (two32 ≤ storage s + 2)%N ∨
     f = WeightOvf ∧ ((∃ m, a_call ag = KCmd m ∧ may_overflow cap budget (sh_iter s) m) ∨
                     (∃ p rs v wl ref k, a_pc ag = FillIn j p rs v wl ref ∧
                        pending s (ph_id p) k ∧ in_overflow budget (sh_iter s) rs k v))).
(* a is parked, or a future that was not notified, and waits for l *)
Definition waits_for y l a : Prop := ∃ ag j p, y_agents y !! a = Some ag ∧ l = pl j p ∧
  ((∃ tm, a_pc ag = JPark j p tm) ∨ (∃ wk, a_pc ag = FIdle j p wk ∧ a_flag ag = false)).
(* No agent can move by itself, but for those in F. These are calls to the insert of a guard in which
   begin_request panicked (sync_placeholder.rs:317): they never move again. *)
Definition at_rest_but (dbg : bool) y (F : list nat) : Prop :=
  (∀ a, a ∈ F → ∃ ag j p rs v wl ref, y_agents y !! a = Some ag ∧ a_pc ag = FillWant j p rs v wl ref) ∧
  (∀ a, a ∉ F → go dbg y a = None).

(* ---- with the locks of the standard library ---- *)
(* A lock that a panicking thread held for writing is poisoned, and whoever wants to take it panics
   (rw_lock.rs: read and write unwrap). Only panics that hold no lock but a shard's, at calm points,
   are considered. *)
Record stdsys := Std { d_sys : sys; d_bad : list nat }.
Definition shards_held a (x : pc P) : list nat :=
  omap (λ h, match h with (LShard j, MW) => Some j | _ => None end) (Conc.holds a x).
Definition only_shards a (x : pc P) : Prop := Forall (λ h : lock * lmode, ∃ j, h.1 = LShard j) (Conc.holds a x).
Inductive std_run (dbg : bool) : stdsys → stdsys → Prop :=
  | sd_nil d : std_run dbg d d
  | sd_step d y bad lb y' : std_run dbg d (Std y bad) → cstep dbg y lb = Some (Ok y') →
      (∀ a ag j m, lb = Go a → y_agents y !! a = Some ag → wants a (a_pc ag) = Some (LShard j, m) → j ∉ bad) →
      std_run dbg d (Std y' bad)
  | sd_panic d y bad a ag q y' : std_run dbg d (Std y bad) → y_agents y !! a = Some ag → only_shards a (a_pc ag) →
      (q, y') ∈ booms y a → calm_at q = true → std_run dbg d (Std y' (shards_held a (a_pc ag) ++ bad))
  | sd_refused d y bad a ag j m : std_run dbg d (Std y bad) → y_agents y !! a = Some ag →
      wants a (a_pc ag) = Some (LShard j, m) → j ∈ bad → std_run dbg d (Std (gone y a) bad).
(* nothing can happen any more, except that somebody starts a call, polls, wakes up for nothing, or
   that time passes: every agent has returned, or is gone, or is parked, or is a future *)
Definition still y : Prop := ∀ a ag, y_agents y !! a = Some ag →
  match a_pc ag with ADone _ | FNew _ _ | FIdle _ _ _ => True | JPark _ _ _ => a_token ag = false | _ => False end.
End concpanicspec.
Arguments happening : clear implicits. Arguments stdsys : clear implicits.
