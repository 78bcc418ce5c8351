(* C52: the lifecycle a cache has when none is given, and where items go. DefaultLife.v defines the two
   default lifecycles, and what goes into and comes out of a shard. *)
From stdpp Require Import prelude list.
From Verif Require Import DefaultProofs DemoConc PropsWatch PropsSeqA Watch WatchSpec.

(* The sync cache. A request that evicts items keeps the last one of them, which is dropped when the
   call has released the shard, or handed to the caller of a with_lifecycle method; None if nothing
   was evicted. *)
Theorem C52_last_evicted : ∀ (P : Params), Lawful P → ptr_ids P = true → ∀ dbg budget ghosts cap e ls (y : sys (sync_default P)) a j x o wl,
  let none : RS (sync_default P) := None in
  execution dbg budget ghosts cap e ls y → (a, EvSec j x (SO o)) ∈ y_log y →
  (∃ k v, x = OCmd (CInsert none k v wl)) ∨ (∃ k v soft, x = OCmd (CReplace none k v soft wl) ∧ o_ret o = RPair None) ∨
  (∃ id v, x = OFill none id v wl) →
  let kept : RS (sync_default P) := last (evicted (hooks_of o)) in
  if wl then o_state o = Some kept else o_state o = None ∧ last (o_log o) = Some (LEnd kept).
Proof.
  intros P LW PI dbg budget ghosts cap e ls y a j x o wl none H Hin Hx kept. apply (sync_default_lawful P) in LW.
  destruct (sec_spec LW PI _ _ _ _ _ _ _ H Hin) as (d & d' & Hd).
  { destruct Hx as [(k & v & ->)|[(k & v & soft & -> & _)|(id & v & ->)]]; simpl; eauto. }
  assert (bracketed none wl o) as (rs' & Ht & Hl & Ho).
  { destruct d as [c pd n], d' as [c' pd' n']. destruct Hx as [(k & v & ->)|[(k & v & soft & -> & Hr)|(id & v & ->)]]; simpl in Hd.
    - destruct Hd as (_ & (es & rs' & Hi & ->) & _). by eapply bracketed_reply, inserts_threads.
    - destruct Hd as (_ & (es & rs' & b & Hi & ->) & _). destruct b; [done|]. by eapply bracketed_reply, inserts_threads.
    - destruct Hd as (k & es & rs' & _ & Hi & -> & _). by eapply bracketed_reply, loads_threads. }
  assert (rs' = kept) as ->. { apply threads_stash in Ht. rewrite Ht. unfold kept, none. clear. by destruct (last (evicted (hooks_of o))). }
  destruct wl; [done|]. split; [done|]. rewrite Hl. rewrite app_comm_cons. apply last_snoc.
Qed.
Print Assumptions C52_last_evicted.
(* Nothing is pinned: weight() never returns more than the capacity, whatever runs at the same time. *)
Theorem C52_within_capacity : ∀ (P : Params), Lawful P → ptr_ids P = true → ∀ dbg budget ghosts cap e ls (y y' : sys (sync_default P)) r,
  execution dbg budget ghosts cap e ls y → (budget ≤ cap)%N → (2 ^ e * cap < two64)%N →
  sees_weight dbg y r y' → ∃ w, r = Ok w ∧ (w ≤ 2 ^ e * cap)%N.
Proof.
  intros P LW PI dbg budget ghosts cap e ls y y' r H Hb Hc. by apply (C46_weight_bound _ (sync_default_lawful P LW) PI _ _ _ _ _ _ _ _ _ H).
Qed.
Print Assumptions C52_within_capacity.
Theorem C52_within_capacity_unsync : ∀ (P : Params), Lawful P → ∀ budget ghosts cap (h : list (cmd (unsync_default P))) os s,
  (budget ≤ cap)%N → (cap < two64)%N → Forall no_growth h → history budget ghosts cap h os s → ∃ w, sh_weight s = Ok w ∧ (w ≤ cap)%N.
Proof.
  intros P LW budget ghosts cap h os s Hb Hc Hg H.
  by destruct (C01_weight_within_capacity _ (unsync_default_lawful P LW) _ _ _ _ _ _ Hb Hc (λ _ _, eq_refl) Hg H) as [_ ?].
Qed.
Print Assumptions C52_within_capacity_unsync.

(* Where items go, with any hooks that leave values alone, as the default ones do. At any time of any
   concurrent execution: the items a shard holds, those it reported as evicted and those it handed back
   are together no more than the items it was given: none is there twice, or comes out twice. *)
Theorem C52_no_item_twice : ∀ (P : Params), Lawful P → ptr_ids P = true → (∀ rs k v, (before_evict P rs k v).2 = v) →
  ∀ dbg budget ghosts cap e ls (y : sys P) j s,
  execution dbg budget ghosts cap e ls y → shard_at y j = Some s →
  sh_iter s ++ got_out (sections j (y_log y)) ⊆+ put_in (sections j (y_log y)).
Proof. intros P LW PI Hid dbg budget ghosts cap e ls y j s H Hj. exact (proj1 (accounts LW PI Hid _ _ _ _ _ H Hj)). Qed.
Print Assumptions C52_no_item_twice.
(* and exactly these items, unless clear or retain was called: none is lost *)
Theorem C52_no_item_lost : ∀ (P : Params), Lawful P → ptr_ids P = true → (∀ rs k v, (before_evict P rs k v).2 = v) →
  ∀ dbg budget ghosts cap e ls (y : sys P) j s,
  execution dbg budget ghosts cap e ls y → shard_at y j = Some s → (∀ z, z ∈ sections j (y_log y) → drops z = false) →
  sh_iter s ++ got_out (sections j (y_log y)) ≡ₚ put_in (sections j (y_log y)).
Proof.
  intros P LW PI Hid dbg budget ghosts cap e ls y j s H Hj Hd. apply (proj2 (accounts LW PI Hid _ _ _ _ _ H Hj)).
  apply forallb_forall. intros z Hz. rewrite (Hd z); [done|]. by apply elem_of_list_In.
Qed.
Print Assumptions C52_no_item_lost.

(* two threads insert into one shard while a third loads a key there; the last insert evicts two items
   and keeps the second *)
Local Open Scope N_scope.
Notation DSW := (sync_default SW).
Definition x_default : list (script DSW) :=
  let ins k v := call_ (P:=DSW) (KCmd (P:=DSW) (CInsert (P:=DSW) None k v true)) in
  [ ins 8 4; load (P:=DSW) 16 None; Run 1; Run 0; L (PutG (P:=DSW) 1 None 5 false); Run 1; ins 24 10; Run 2 ].
Example C52_example : ∃ s o, let y := on x_default in
  execution true 10 3 14 1 (on_ls x_default) y ∧ shard_at y 0 = Some s ∧ sh_iter s = [(24, 10)] ∧
  got_out (sections 0 (y_log y)) = [(8, 4); (16, 5)] ∧ put_in (sections 0 (y_log y)) = [(8, 4); (16, 5); (24, 10)] ∧
  last (sections 0 (y_log y)) = Some (OCmd (CInsert (P:=DSW) None 24 10 true), SO o) ∧ o_state o = Some (Some (16, 5)).
Proof.
  exists (default (sh_new 10 3 14) (shard_at (on x_default) 0)), (match last (sections 0 (y_log (on x_default))) with Some (_, SO o) => o | _ => plain RUnit end).
  cbv zeta. split; [apply on_execution|]. split_and!; vm_compute; reflexivity.
Qed.
