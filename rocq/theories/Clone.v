(* Clone for the unsync cache. *)
From stdpp Require Import prelude list.
From Verif Require Export PropSpec Anew.

Section clone.
Context {P : Params}.
(* Key::clone and Val::clone *)
Context (ck : K P → K P) (cv : V P → V P).

(* shard.rs:46-56 Clone for Resident; 58 derive(Clone) for Placeholder, whose handle is copied
   (unsync.rs:421 derive(Clone)); 65 derive(Clone) for Entry *)
Definition clone_entry (e : entry P) : entry P :=
  match e with
  | Resident r => Resident (Res (ck (r_key r)) (cv (r_val r)) (r_state r) (r_ref r))
  | Placeholder p => Placeholder (Pla (ck (p_key p)) (p_hot p) (p_shared p))
  | Ghost h => Ghost h
  end.
(* linked_slab.rs:3 derive(Clone) for the entries of the slab, 15 for LinkedSlab *)
Definition clone_node (x : snode (entry P)) : snode (entry P) := SNode (clone_entry <$> item x) (nxt x) (prv x).
Definition clone_slab (sl : slab (entry P)) : slab (entry P) := Slab (clone_node <$> ents sl) (next_free sl).
(* unsync.rs:10 derive(Clone) for Cache; shard.rs:104-136 Clone for CacheShard. T: the clone of the hash
   table. Hasher, weighter and lifecycle are cloned too, and taken to answer as before. *)
Definition sh_clone (T : table) (s : shard P) : shard P :=
  Shard T (clone_slab (sh_ents s)) (Acct (a_head (sh_hot s)) (a_weight (sh_hot s)) (a_num (sh_hot s)))
    (Acct (a_head (sh_cold s)) (a_weight (sh_cold s)) (a_num (sh_cold s))) (sh_ghost_head s) (sh_target_hot s) (sh_capacity s)
    (sh_nnr s) (sh_cap_nr s) (sh_hits s) (sh_misses s) (sh_nph s).
End clone.

Section spec.
Context {P : Params}.
(* Clones of keys and values that do what is expected of them: equal keys, of the same hash, and values
   of the same weight. *)
Definition faithful (ck : K P → K P) (cv : V P → V P) : Prop :=
  (∀ k, keqb P (ck k) k = true) ∧ (∀ k v, weight P (ck k) (cv v) = weight P k v) ∧ (∀ k v, pinned P (ck k) (cv v) = pinned P k v).
(* s' is a clone of s: the clone of the table has the same buckets, not necessarily in the same order *)
Definition clone_of (s s' : shard P) ck cv : Prop :=
  ∃ T, tpairs T ≡ₚ tpairs (sh_map s) ∧ s' = sh_clone ck cv T s.

(* The caches one gets from a new one by calls, and by going on with a clone; h: the calls made on
   the way. *)
Inductive descends (budget ghosts cap : N) : list (cmd P) → shard P → Prop :=
  | de_new : descends budget ghosts cap [] (sh_new budget ghosts cap)
  | de_call h s m s' o : descends budget ghosts cap h s → exec s m = Ok (s', o) → descends budget ghosts cap (h ++ [m]) s'
  | de_clone h s s' ck cv : descends budget ghosts cap h s → faithful ck cv → clone_of s s' ck cv → descends budget ghosts cap h s'.
End spec.
