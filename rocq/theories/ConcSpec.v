(* Specification of the calls of the sync cache used by many threads and futures: what a call may
   have done, in order, when it returns; who is in charge of a load; what cancels a load. All of it
   speaks of the events only. *)
From stdpp Require Import prelude list.
From Verif Require Export Conc.

Section concspec.
Context {P : Params}.
Notation K := (K P). Notation V := (V P). Notation RS := (RS P).
Implicit Types (k : K) (v : V) (rs : RS) (a b : nat) (l : loc) (j : nat) (g : list (nat * cevent P)) (h : list (cevent P)).

(* y can be reached from a new cache of 2^e shards, by the labels ls *)
Definition execution (dbg : bool) (budget ghosts cap e : N) (ls : list (label P)) (y : sys P) : Prop :=
  steps dbg (sys_new budget ghosts cap e) ls y.

(* ---- the life of a call ---- *)
(* what agent a did, except for notifying others *)
Definition mine a (ev : nat * cevent P) : list (cevent P) :=
  if decide (ev.1 = a) then match ev.2 with EvNote _ => [] | z => [z] end else [].
Definition hist g a : list (cevent P) := concat (map (mine a) g).

(* a call that loads: it asked for the value and it was not there *)
Definition loads_key (c : call P) : option K := match c with KLoad k _ | KFut k => Some k | KCmd _ => None end.
Definition asked j (c : call P) k : list (cevent P) := [EvCall c; EvSec j (OCmd (CGet k)) (SO (plain (RVal None)))].
(* it started the load id *)
Definition began j c k (id : N) : list (cevent P) := asked j c k ++ [EvSec j (OJoin k) (SNew id)].
(* it found the load id pending, and queued up *)
Definition queued j c k (id : N) : list (cevent P) := asked j c k ++ [EvSec j (OJoin k) (SWait id); EvWait (j, id)].
(* it became the guard of the load id *)
Inductive guarded j c k (id : N) : list (cevent P) → Prop :=
  | gd_began : guarded j c k id (began j c k id ++ [EvGuard (j, id)])
  | gd_queued : guarded j c k id (queued j c k id ++ [EvGuard (j, id)]).
(* the guard was dropped: passed on, or given up *)
Inductive dropped j (id : N) : list (cevent P) → Prop :=
  | dr_give b : dropped j id [EvGive (j, id) b]
  | dr_end : dropped j id [EvSec j (ODrop id) SGone; EvEnd (j, id)].

(* [life mask n c h r]: in a cache of n shards, selected by the hash bits mask, a call c that
   returned r did h, in this order. *)
Inductive life (mask : N) (n : nat) : call P → list (cevent P) → ret P → Prop :=
  (* a plain call for one key: one step on the shard of the key *)
  | lf_key m k o : key_of m = Some k →
      life mask n (KCmd m) [EvCall (KCmd m); EvSec (shard_idx mask k) (OCmd m) (SO o)] (RetOut o)
  (* a plain call for all keys: one step on every shard, in turn *)
  | lf_all m : key_of m = None →
      life mask n (KCmd m) (EvCall (KCmd m) :: map (λ j, EvSec j (OCmd m) (SO (plain RUnit))) (seq 0 n)) (RetOut (plain RUnit))
  (* a call that loads: the value is cached *)
  | lf_hit c k v : loads_key c = Some k →
      life mask n c [EvCall c; EvSec (shard_idx mask k) (OCmd (CGet k)) (SO (plain (RVal (Some v))))] (RetVal v None)
  | lf_hit_now c k v : loads_key c = Some k →
      life mask n c (asked (shard_idx mask k) c k ++ [EvSec (shard_idx mask k) (OJoin k) (SHit v)]) (RetVal v None)
  (* the value was provided to the load it found, before it queued up, or later *)
  | lf_val_now c k id v : loads_key c = Some k →
      life mask n c (asked (shard_idx mask k) c k ++ [EvSec (shard_idx mask k) (OJoin k) (SWait id)]) (RetVal v (Some (shard_idx mask k, id)))
  | lf_val c k id v : loads_key c = Some k →
      life mask n c (queued (shard_idx mask k) c k id) (RetVal v (Some (shard_idx mask k, id)))
  (* it gave up waiting *)
  | lf_timeout k to id :
      life mask n (KLoad k (Some to)) (queued (shard_idx mask k) (KLoad k (Some to)) k id) RetTimeout
  | lf_cancel_new k : life mask n (KFut k) [EvCall (KFut k)] RetCancel
  | lf_cancel k id : life mask n (KFut k) (queued (shard_idx mask k) (KFut k) k id) RetCancel
  (* it was given the guard, and dropped it because nobody polled the future any more *)
  | lf_cancel_drop k id h : dropped (shard_idx mask k) id h →
      life mask n (KFut k) (queued (shard_idx mask k) (KFut k) k id ++ h) RetDrop
  (* it returned a guard: the value was inserted, or was stale; or the guard was dropped *)
  | lf_insert c k id h rs v wl o : loads_key c = Some k → guarded (shard_idx mask k) c k id h →
      life mask n c (h ++ [EvPut (shard_idx mask k, id) v; EvSec (shard_idx mask k) (OFill rs id v wl) (SO o)]) (RetOut o)
  | lf_stale c k id h rs v wl : loads_key c = Some k → guarded (shard_idx mask k) c k id h →
      life mask n c (h ++ [EvPut (shard_idx mask k, id) v; EvSec (shard_idx mask k) (OFill rs id v wl) (SStale v)]) (RetStale v)
  | lf_drop c k id h h' : loads_key c = Some k → guarded (shard_idx mask k) c k id h → dropped (shard_idx mask k) id h' →
      life mask n c (h ++ h') RetDrop.

(* ---- who is in charge of a load ---- *)
(* a was made responsible for l: it started the load, or was given the guard *)
Definition trusted g l a : Prop :=
  (∃ k, (a, EvSec l.1 (OJoin k) (SNew l.2)) ∈ g) ∨ (∃ b, (b, EvGive l a) ∈ g).
(* it provided the value, passed the guard on, or gave up *)
Definition settled g l a : Prop :=
  (∃ v, (a, EvPut l v) ∈ g) ∨ (∃ b, (a, EvGive l b) ∈ g) ∨ (a, EvEnd l) ∈ g.
Definition in_charge g l a : Prop := trusted g l a ∧ ¬ settled g l a.

(* ---- what may happen when ---- *)
(* somebody notified a *)
Definition noted g a : Prop := ∃ b, (b, EvNote a) ∈ g.
(* the call of a returned something that is not a guard, or its guard is gone *)
Definition returned g a : Prop := ∃ r, (a, EvRet r) ∈ g.
(* a queued up for l, and was neither notified nor gave up *)
Definition waiting g l a : Prop := (a, EvWait l) ∈ g ∧ ¬ noted g a ∧ ¬ returned g a.
(* the load an event is about *)
Definition about (ev : cevent P) : option loc :=
  match ev with
  | EvSec j (OJoin _) (SNew id) | EvSec j (OJoin _) (SWait id) | EvSec j (OFill _ id _ _) _ | EvSec j (ODrop id) _ => Some (j, id)
  | EvWait l | EvPut l _ | EvGive l _ | EvEnd l | EvGuard l | EvRet (RetVal _ (Some l)) => Some l
  | _ => None
  end.
Definition started g l : Prop := ∃ a k, (a, EvSec l.1 (OJoin k) (SNew l.2)) ∈ g.
Definition ended g l : Prop := ∃ a, (a, EvEnd l) ∈ g.
(* Agent a may do ev after everything in g was done. *)
Definition proper g a (ev : cevent P) : Prop :=
  match ev with
  | EvCall _ => ∀ ev', (a, ev') ∉ g
  | EvSec j (OJoin _) (SNew id) => ∀ b ev', (b, ev') ∈ g → about ev' ≠ Some (j, id)
  | EvSec j (OJoin _) (SWait id) => started g (j, id) ∧ ¬ ended g (j, id)
  | EvSec j (OFill _ id v _) _ => (a, EvPut (j, id) v) ∈ g ∧ ∀ b, ¬ waiting g (j, id) b
  | EvSec j (ODrop id) _ => in_charge g (j, id) a ∧ ∀ b, ¬ waiting g (j, id) b
  | EvSec _ _ _ => True
  | EvWait l => ¬ ended g l ∧ ∃ b, in_charge g l b
  | EvPut l _ => in_charge g l a ∧ ∀ b v, (b, EvPut l v) ∉ g
  | EvGive l b => in_charge g l a ∧ waiting g l b ∧ ¬ trusted g l b
  | EvEnd l => in_charge g l a ∧ ∀ b, ¬ waiting g l b
  | EvNote b => ∃ l, waiting g l b ∧ ((a, EvGive l b) ∈ g ∨ ∃ v, (a, EvPut l v) ∈ g)
  | EvGuard l => in_charge g l a
  | EvRet r =>
      (∀ l, ¬ in_charge g l a) ∧ (∀ l b, (a, EvGive l b) ∈ g → noted g b) ∧
      (∀ l v b, (a, EvPut l v) ∈ g → ¬ waiting g l b) ∧
      match r with
      | RetVal v (Some l) => (∃ b, (b, EvPut l v) ∈ g) ∧ ((a, EvWait l) ∈ g → noted g a)
      | RetTimeout => ¬ noted g a ∧ ∀ l, ¬ trusted g l a
      | RetCancel => ∀ l, ¬ trusted g l a
      | _ => True
      end
  end.
(* every event of g was proper when it happened *)
Definition proper_log g : Prop := ∀ g1 a ev g2, g = g1 ++ (a, ev) :: g2 → proper g1 a ev.

(* the critical sections of shard j, in the order they took effect *)
Definition sec_of j (e : nat * cevent P) : list (sop P * sres P) :=
  match e.2 with EvSec i x r => if decide (i = j) then [(x, r)] else [] | _ => [] end.
Definition sections j g : list (sop P * sres P) := concat (map (sec_of j) g).

(* ---- what cancels a load ---- *)
(* the call m, on the shard of the load, cancels a load of key k *)
Definition cancels (budget : N) (m : cmd P) k : Prop :=
  match m with
  | CRemove k' => keqb P k' k = true
  | CInsert rs k' v _ => keqb P k' k = true ∧ (admission budget rs k' v).2 = false
  | CClear => True
  | _ => False
  end.
End concspec.
