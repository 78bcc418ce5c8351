(* The hash table, as an oracle that only looks at what the table holds. *)
From Verif Require Export PropSpec SyncSpec.

(* The order in which buckets are probed and visited, and the moment the table grows, depend
   only on the buckets it holds, not on what was done to it before. *)
Definition history_blind (P : Params) : Prop := ∀ T T', tpairs T = tpairs T' →
  (∀ h, probe P T h = probe P T' h) ∧ titer P T = titer P T' ∧ grows P T = grows P T'.
