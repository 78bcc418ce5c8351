(* The remaining vocabulary of PropsConc.v: the order of the locks, states in which no agent can
   move by itself, who holds a guard, what cancels a load, hotness counters that change freely. *)
From stdpp Require Import prelude list.
From Verif Require Export ConcSpec.

(* the order of the locks: shard, state of a placeholder, waiter of a task *)
Definition lock_rank (l : lock) : nat := match l with LShard _ => 0 | LState _ => 1 | LWaiter _ => 2 end.

Section concpropspec.
Context {P : Params}.
Notation K := (K P). Notation V := (V P). Notation RS := (RS P).
Implicit Types (k : K) (v : V) (a b : nat) (l : loc) (j : nat) (g : list (nat * cevent P)) (y : sys P).

(* the labels are steps the agents make by themselves: no new call, no poll, no use of a guard, no
   passing of time *)
Definition only_go (ls : list (label P)) : Prop := Forall (λ lb, ∃ a, lb = Go a) ls.
(* no agent can make such a step *)
Definition at_rest (dbg : bool) y : Prop := ∀ a, go dbg y a = None.
(* the program holds the guard of l that the call of a returned *)
Definition guard_held y l a : Prop := ∃ ag j p, y_agents y !! a = Some ag ∧ a_pc ag = AGuard j p ∧ l = pl j p.
(* a is a future that waits for l and was notified; the waker of its last poll was woken *)
Definition woken_future y l a : Prop := ∃ ag j p wk,
  y_agents y !! a = Some ag ∧ a_pc ag = FIdle j p wk ∧ l = pl j p ∧ a_flag ag = true ∧ a_woken ag = Some wk.
(* a call in g, on shard j, cancels the pending load of k *)
Definition cancelled (budget : N) g j k : Prop :=
  ∃ d m o, (d, EvSec j (OCmd m) (SO o)) ∈ g ∧ cancels budget m k.
(* somebody who asked for a key now would find, or start, the load l *)
Definition would_join y l : Prop := ∃ s k s' p isnew,
  sc_shards (y_cache y) !! l.1 = Some s ∧ upsert_placeholder s (hash P k) k = Ok (s', inr (p, isnew)) ∧ ph_id p = l.2.

(* What the sections of a shard wrote and erased, oldest first. The value provided to a load is
   written to the key it was started for. *)
Fixpoint load_key (h : list (sop P * sres P)) (id : N) : option K :=
  match h with
  | (OJoin k, SNew i) :: h => if decide (i = id) then Some k else load_key h id
  | _ :: h => load_key h id
  | [] => None
  end.
Definition writes (h : list (sop P * sres P)) (z : sop P * sres P) : list (effect P) :=
  match z with
  | (OCmd m, SO o) => effects m o
  | (OFill _ id v _, SO _) => match load_key h id with Some k => [Wrote k v] | None => [] end
  | _ => []
  end.
Fixpoint story_rev (h : list (sop P * sres P)) : list (effect P) :=
  match h with z :: h => story_rev h ++ writes h z | [] => [] end.
Definition story (h : list (sop P * sres P)) : list (effect P) := story_rev (rev h).

(* the shard is as the sequential properties say: no key twice, lookups find what is cached, len and
   weight are exact, what may be evicted fits (get_mut does not exist here), evicted keys remembered
   within their bound *)
Record sound (budget ghosts cap : N) (s : shard P) : Prop := {
  so_unique : ∀ i i' z z', sh_iter s !! i = Some z → sh_iter s !! i' = Some z' → keqb P z.1 z'.1 = true → i = i';
  so_peek : ∀ k, u_peek s k = Ok (value_of k (sh_iter s));
  so_len : sh_len s = N.of_nat (length (sh_iter s));
  so_weight : sh_weight s = if (wsum (sh_iter s) <? two64)%N then Ok (wsum (sh_iter s)) else Fail WeightOvf;
  so_bound : (budget ≤ cap)%N → (uwsum (sh_iter s) ≤ cap)%N;
  so_ghosts : (N.of_nat (length (remembered s)) ≤ ghosts)%N;
}.
(* Why a step may panic: the shard's slab has no slot left, or adding the weight overflows. *)
Definition runs_out (budget cap : N) y (lb : label P) (f : fail) : Prop :=
  ∃ a ag j s, lb = Go a ∧ y_agents y !! a = Some ag ∧ sc_shards (y_cache y) !! j = Some s ∧
    (f = SlabFull ∧ (two32 ≤ storage s + 2)%N ∨
     f = WeightOvf ∧ ((∃ m, a_call ag = KCmd m ∧ may_overflow cap budget (sh_iter s) m) ∨
                     (∃ p rs v wl ref k, a_pc ag = FillIn j p rs v wl ref ∧
                        load_key (rev (sections j (y_log y))) (ph_id p) = Some k ∧ in_overflow budget (sh_iter s) rs k v))).
(* the shards are the same, except for the counter of one item, or the hits or misses of one shard *)
Definition same_but_hot (c c' : scache P) : Prop :=
  c' = c ∨ ∃ j s, sc_shards c !! j = Some s ∧
    ((∃ i r n, entry_at s i = Ok (Resident r) ∧ c' = with_shard c j (set_entry s i (Resident (set_key_ref r n)))) ∨
     c' = with_shard c j (record_hit s) ∨ c' = with_shard c j (record_miss s)).

(* the counter of one cached item is set to n *)
Definition scrambles y y' : Prop := ∃ j s i r (n : N), sc_shards (y_cache y) !! j = Some s ∧ entry_at s i = Ok (Resident r) ∧
  y' = put_shard y j (set_entry s i (Resident (set_key_ref r n))).
(* an execution in which the counters change by themselves, at any time, to any value *)
Inductive wild (dbg : bool) : sys P → sys P → Prop :=
  | wd_nil y : wild dbg y y
  | wd_step y y1 lb y2 : wild dbg y y1 → cstep dbg y1 lb = Some (Ok y2) → wild dbg y y2
  | wd_scramble y y1 y2 : wild dbg y y1 → scrambles y1 y2 → wild dbg y y2.
End concpropspec.
