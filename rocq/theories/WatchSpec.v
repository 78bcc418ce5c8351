(* Specification of the statistics of the sync cache: which lookups are hits and misses, and what a
   call contributes to the two counters. *)
From stdpp Require Import prelude list.
From Verif Require Export ConcSpec Watch.

Section watchspec.
Context {P : Params}.
Notation K := (K P). Notation V := (V P).
Implicit Types (k : K) (v : V) (j : nat) (y : sys P).

(* A lookup found the key, or a load of it. *)
Definition is_hit (z : sop P * sres P) : bool :=
  match z with
  | (OCmd (CGet _), SO (Out (RVal (Some _)) _ _ _)) | (OJoin _, SHit _) | (OJoin _, SWait _) => true
  | _ => false
  end.
(* It found nothing. *)
Definition is_miss (z : sop P * sres P) : bool :=
  match z with
  | (OCmd (CGet _), SO (Out (RVal None) _ _ _)) | (OJoin _, SNew _) => true
  | _ => false
  end.
Definition n_hits (h : list (sop P * sres P)) : N := N.of_nat (length (List.filter is_hit h)).
Definition n_misses (h : list (sop P * sres P)) : N := N.of_nat (length (List.filter is_miss h)).

(* the lookups of agents that found a value, or nothing, in shard j, but have not counted it yet *)
Definition to_count_hit j (x : pc P) : bool := match x with GBump i _ _ _ | GHit i _ _ => bool_decide (i = j) | _ => false end.
Definition to_count_miss j (x : pc P) : bool := match x with GMiss i _ _ => bool_decide (i = j) | _ => false end.
Definition uncounted (f : pc P → bool) y : N := N.of_nat (length (List.filter (λ ag, f (a_pc ag)) (y_agents y))).

Definition sumN (l : list N) : N := foldr N.add 0%N l.
Definition total_hits y : N := sumN (map sh_hits (sc_shards (y_cache y))).
Definition total_misses y : N := sumN (map sh_misses (sc_shards (y_cache y))).
(* everything that is cached *)
Definition all_items y : list (K * V) := concat (map sh_iter (sc_shards (y_cache y))).

(* [counts_as c r h m]: a call c that returned r added h to the hits and m to the misses. A call
   that loads looks twice when the first lookup misses; waiting for the load of somebody else is a
   hit, starting one a second miss. *)
Inductive counts_as : call P → ret P → N → N → Prop :=
  | ca_get_hit k v l b n : counts_as (KCmd (CGet k)) (RetOut (Out (RVal (Some v)) l b n)) 1 0
  | ca_get_miss k l b n : counts_as (KCmd (CGet k)) (RetOut (Out (RVal None) l b n)) 0 1
  | ca_other m r : (∀ k, m ≠ CGet k) → counts_as (KCmd m) r 0 0
  | ca_cached c k v : loads_key c = Some k → counts_as c (RetVal v None) 1 0
  | ca_cached_late c k v : loads_key c = Some k → counts_as c (RetVal v None) 1 1
  | ca_given c k v l : loads_key c = Some k → counts_as c (RetVal v (Some l)) 1 1
  | ca_timeout k to : counts_as (KLoad k (Some to)) RetTimeout 1 1
  | ca_unpolled k : counts_as (KFut k) RetCancel 0 0
  | ca_cancel k : counts_as (KFut k) RetCancel 1 1
  | ca_started c k r : loads_key c = Some k → (r = RetDrop ∨ (∃ o, r = RetOut o) ∨ ∃ v, r = RetStale v) → counts_as c r 0 2
  | ca_took_over c k r : loads_key c = Some k → (r = RetDrop ∨ (∃ o, r = RetOut o) ∨ ∃ v, r = RetStale v) → counts_as c r 1 1.

(* a section that writes nothing *)
Definition only_reads (z : sop P * sres P) : bool :=
  match z with (OCmd (CGet _), _) | (OCmd (CPeek _), _) | (OCmd (CContains _), _) => true | _ => false end.
End watchspec.
