(* Specification for C50: the machine of Policy.v as one shard of the sync cache runs it, shared
   by any number of threads and futures. Each step is a critical section of the shard, with the
   result it had (SyncSpec.v). Two things are new:
     h_open, h_next  the pending loads by identity, and the next identity, as in SyncSpec.v
     h_uses          gets under way: keys whose item was found, but whose use is not counted yet
   The log of the cache, and who waits for a load, are those of ConcSpec.v. *)
From Verif Require Export ConcSpec Policy.

Section shared.
Context {P : Params}.
Notation K := (K P). Notation V := (V P).
Notation item := (resident P). Notation policy := (policy P).
Implicit Types (k : K) (v : V) (x : item) (p q : policy) (lim : limits) (id : N) (j : nat) (g : list (nat * cevent P)).

Record shared := Shared {
  h_pol : policy;
  h_open : N → option K;
  h_next : N;
  h_uses : list K;
}.
Implicit Types (h : shared).
Definition h_empty : shared := Shared q_empty (λ _, None) 0 [].
Definition put_pol h p : shared := Shared p (h_open h) (h_next h) (h_uses h).
Definition put_uses h U : shared := Shared (h_pol h) (h_open h) (h_next h) U.

(* one more use, without a limit: the counter has 16 bits *)
Definition used_once x : item := Res (r_key x) (r_val x) (r_state x) ((r_ref x + 1) mod 65536).

(* A get finds the item, and if it was used less than twice, counts the use in a second step. In
   between other gets may find the item, and no other call may change the shard. *)
Inductive counts h : shared → Prop :=
  | counts_use A k B x q : h_uses h = A ++ k :: B → item_of (h_pol h) k x → turn (h_pol h) x (used_once x) q →
      counts h (Shared q (h_open h) (h_next h) (A ++ B)).

(* [wt id]: somebody waited for the load id when its value was provided *)
Inductive section_does lim (wt : N → Prop) h : sop P → sres P → shared → Prop :=
  | d_look k m o : m = CContains k ∨ m = CPeek k → pstep lim (h_pol h) m o (h_pol h) →
      section_does lim wt h (OCmd m) (SO o) h
  | d_hit k x : item_of (h_pol h) k x →
      section_does lim wt h (OCmd (CGet k)) (SO (plain (RVal (Some (r_val x)))))
        (put_uses h (if (r_ref x <? 2)%N then r_key x :: h_uses h else h_uses h))
  | d_miss k : no_item (h_pol h) k → section_does lim wt h (OCmd (CGet k)) (SO (plain (RVal None))) h
  (* remove, replace, insert, retain, clear, reserve: as in Policy.v; pending loads are cancelled
     by some of them *)
  | d_call m o q : sync_cmd m = true → reads m = false → h_uses h = [] → pstep lim (h_pol h) m o q →
      section_does lim wt h (OCmd m) (SO o) (Shared q (pend_after (lm_budget lim) m (h_open h)) (h_next h) [])
  (* somebody asks for the value of k or the right to load it *)
  | d_join_hit k x q : h_uses h = [] → item_of (h_pol h) k x → turn (h_pol h) x (used_more x) q →
      section_does lim wt h (OJoin k) (SHit (r_val x)) (put_pol h q)
  | d_join_wait k k0 st id : h_uses h = [] → loading (h_pol h) k k0 st → h_open h id = Some k0 →
      section_does lim wt h (OJoin k) (SWait id) h
  | d_join_new k st q : h_uses h = [] → q_loads (h_pol h) k = None → start_load (h_pol h) k q k st →
      section_does lim wt h (OJoin k) (SNew (h_next h)) (Shared q (pset (h_next h) (Some k) (h_open h)) (h_next h + 1) [])
  (* the value of a load is provided. The new item starts with one use if others waited for it. *)
  | d_fill rs id v wl k st (b : bool) q l' : (b = true ↔ wt id) → h_uses h = [] → h_open h id = Some k → q_loads (h_pol h) k = Some (k, st) →
      filling lim (if b then 1 else 0) (h_pol h) (Lcs rs []) k st v q l' →
      section_does lim wt h (OFill rs id v wl) (SO (finished rs l' wl RGuard false)) (Shared q (pset id None (h_open h)) (h_next h) [])
  | d_stale rs id v wl : h_uses h = [] → h_open h id = None → section_does lim wt h (OFill rs id v wl) (SStale v) h
  (* a load is given up *)
  | d_drop id k : h_uses h = [] → h_open h id = Some k →
      section_does lim wt h (ODrop id) SGone (Shared (put_load (h_pol h) k None) (pset id None (h_open h)) (h_next h) [])
  | d_drop_gone id : h_uses h = [] → h_open h id = None → section_does lim wt h (ODrop id) SGone h.

(* somebody waited for the load id of shard j when its value was provided *)
Definition waited g j id : Prop := ∃ g1 a v g2 b, g = g1 ++ (a, EvPut (j, id) v) :: g2 ∧ waiting g1 (j, id) b.

(* [shared_run lim j g h]: when g is all that happened in the cache, in this order, the critical
   sections of shard j that are in g took the machine from the empty one to h, counting uses at
   any time. *)
Inductive shared_run lim j : list (nat * cevent P) → shared → Prop :=
  | run_new : shared_run lim j [] h_empty
  | run_section g h a o r h' : shared_run lim j g h → section_does lim (waited g j) h o r h' →
      shared_run lim j (g ++ [(a, EvSec j o r)]) h'
  | run_other g h a ev : shared_run lim j g h → (∀ o r, ev ≠ EvSec j o r) → shared_run lim j (g ++ [(a, ev)]) h
  | run_counts g h h' : shared_run lim j g h → counts h h' → shared_run lim j g h'.
End shared.
Arguments shared : clear implicits.
