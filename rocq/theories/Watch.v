(* The calls of the sync cache that look at every shard, while other threads and futures use it. *)
From stdpp Require Import prelude list.
From Verif Require Export Conc.

Section watch.
Context {P : Params}.
Notation shard := (shard P). Notation sys := (sys P).
Implicit Types (s : shard) (j : nat) (y : sys).

(* [watch dbg f more j y vs ls y']: called when the system was in the state y, with the shards before
   j already read, the rest of self.shards.iter().map(|s| f(s.read())) saw vs, and was done in the
   state y'; the others made the steps ls meanwhile. A shard is read under its read lock: at a moment
   when nobody holds the lock for writing. The iteration stops after a value that is not [more].
   The lock is held for the reading only, which is one moment here: a thread that holds it excludes
   writers, so it only takes executions away. *)
Inductive watch (dbg : bool) {A} (f : shard → A) (more : A → bool) : nat → sys → list A → list (label P) → sys → Prop :=
  | wt_end j y : length (sc_shards (y_cache y)) ≤ j → watch dbg f more j y [] [] y
  | wt_stop j y ls y1 s : steps dbg y ls y1 → sc_shards (y_cache y1) !! j = Some s →
      free y1 (LShard j, MR) = true → more (f s) = false → watch dbg f more j y [f s] ls y1
  | wt_next j y ls y1 s vs ls' y2 : steps dbg y ls y1 → sc_shards (y_cache y1) !! j = Some s →
      free y1 (LShard j, MR) = true → more (f s) = true → watch dbg f more (S j) y1 vs ls' y2 →
      watch dbg f more j y (f s :: vs) (ls ++ ls') y2.
Definition all {A} (_ : A) : bool := true.

(* sync.rs:164-166 is_empty: all() stops at the first shard that is not empty *)
Definition sees_is_empty dbg y (b : bool) y' : Prop :=
  ∃ vs ls, watch dbg sh_len (λ n, (n =? 0)%N) 0 y vs ls y' ∧ b = forallb (λ n, (n =? 0)%N) vs.
(* sync.rs:169-171 len *)
Definition sees_len dbg y (r : res N) y' : Prop := ∃ vs ls, watch dbg sh_len all 0 y vs ls y' ∧ r = sum64 vs.
(* sync.rs:174-176 weight; shard.rs weight() panics on overflow in a debug build *)
Definition sees_weight dbg y (r : res N) y' : Prop :=
  ∃ vs ls, watch dbg sh_weight (λ r, match r with Ok _ => true | _ => false end) 0 y vs ls y' ∧
    r = let! l := seq_res vs in sum64 l.
(* sync.rs:181-183 capacity *)
Definition sees_capacity dbg y (r : res N) y' : Prop := ∃ vs ls, watch dbg sh_capacity all 0 y vs ls y' ∧ r = sum64 vs.
(* sync.rs:197-199 misses, 203-205 hits: the counters are loaded under the read lock *)
Definition sees_misses dbg y (r : res N) y' : Prop := ∃ vs ls, watch dbg sh_misses all 0 y vs ls y' ∧ r = sum64 vs.
Definition sees_hits dbg y (r : res N) y' : Prop := ∃ vs ls, watch dbg sh_hits all 0 y vs ls y' ∧ r = sum64 vs.
End watch.
