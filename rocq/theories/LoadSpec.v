(* The vocabulary of PropsLoad.v: get_or_insert_with and get_or_insert_async in concurrent use. *)
From stdpp Require Import prelude list.
From Verif Require Export ConcPropSpec.

Section loadspec.
Context {P : Params}.
Notation K := (K P). Notation V := (V P).
Implicit Types (k : K) (v : V) (a b : nat) (g : list (nat * cevent P)) (w : nat → option V).

(* sync.rs:373-391 get_or_insert_with and 417-433 get_or_insert_async: get_value_or_guard(key, None),
   or its async form; if that returns a guard, run the closure, and insert what it computes, or drop
   the guard when it fails. [w a] is what the closure passed to call a computes: a value, or no value
   (an error; or the future is dropped, or unwinds, before the closure has finished). *)
Definition or_insert (c : call P) k : Prop := c = KLoad k None ∨ c = KFut k.
Definition closures w (ls : list (label P)) : Prop :=
  Forall (λ lb, match lb with PutG a _ v wl => w a = Some v | DropG a => w a = None | _ => True end) ls.
(* the closure of a was called *)
Definition ran g a : Prop := ∃ l, (a, EvGuard l) ∈ g.
(* What a call that returned r answers its caller: Some v is Ok(v). The value the closure computed is
   returned whether or not inserting it succeeded (386-387, 428-429). *)
Definition answer w a (r : ret P) : option V :=
  match r with RetVal v _ => Some v | RetOut _ | RetStale _ => w a | RetDrop | RetTimeout | RetCancel => None end.
(* a read the value v of key k from the cache: it is what the latest write to the key left there *)
Definition read_cached g a k v : Prop := ∃ g1 j ev g2, g = g1 ++ (a, ev) :: g2 ∧
  (ev = EvSec j (OCmd (CGet k)) (SO (plain (RVal (Some v)))) ∨ ev = EvSec j (OJoin k) (SHit v)) ∧
  came_from (story (sections j g1)) k v.
(* when a was called, b had not returned yet *)
Definition not_before g a b : Prop := ∀ g1 c g2, g = g1 ++ (a, EvCall c) :: g2 → ¬ returned g1 b.
(* the closure of b was called and computed no value; or b is a future that was dropped before it
   would have been called *)
Definition failed w (ls : list (label P)) g b : Prop := (ran g b ∧ w b = None) ∨ (DropFut b ∈ ls ∧ ¬ ran g b).
(* b is a call for a key equal to k whose closure was called and computed v *)
Definition computed_by w (y : sys P) b k v : Prop := ∃ bg k', y_agents y !! b = Some bg ∧
  loads_key (a_call bg) = Some k' ∧ keqb P k' k = true ∧ ran (y_log y) b ∧ w b = Some v.
End loadspec.
