(* C50: the replacement policy of the sync cache under concurrent use. The machine of Policy.v,
   shared by threads and futures, is in PolicyShared.v. *)
From stdpp Require Import prelude list.
From Verif Require Import PolicyConc DemoConc.

(* Whatever the interleaving, the critical sections of a shard are steps of the machine on lists,
   in the order in which they happened and with the results they had. The cached items of the
   shard are the items of the machine. Unless a get has found its item and is about to count the
   use, every use is counted. *)
Theorem C50_shared_policy : ∀ (P : Params), Lawful P → ptr_ids P = true →
  ∀ dbg budget ghosts cap e ls (y : sys P), execution dbg budget ghosts cap e ls y →
  ∀ j s, sc_shards (y_cache y) !! j = Some s →
  ∃ h, shared_run (Limits budget ghosts cap) j (y_log y) h ∧
    sh_iter s ≡ₚ map (λ x, (r_key x, r_val x)) (q_items (h_pol h)) ∧
    ((∀ a ag i v c, y_agents y !! a = Some ag → a_pc ag ≠ GBump j i v c) → h_uses h = []).
Proof.
  intros P LW PI dbg budget ghosts cap e ls y H j s Hs. destruct (followed_all LW PI _ _ _ H j s Hs) as (h & Hr & HS & Hu).
  exists h. split; [done|]. split; [by eapply rel_iter, HS|]. intros Hq. rewrite (under_way_quiet_all y j s Hq) in Hu. by apply Permutation_nil_r.
Qed.
Print Assumptions C50_shared_policy.

(* A thread and a future wait for a load of key 5 when its value is provided; four threads find
   the same item before any of them counts its use. *)
Example C50_example :
  execution true 10 3 14 1 (on_ls x_load) (on x_load) ∧ waited (y_log (on x_load)) 1 0 ∧
  sh_iter <$> sc_shards (y_cache (on x_load)) !! 1 = Some [(5, 6)]%N ∧
  execution true 10 3 14 1 (on_ls x_race) (on x_race) ∧
  sh_iter <$> sc_shards (y_cache (on x_race)) !! 1 = Some [(5, 6)]%N.
Proof.
  split; [apply on_execution|]. split; [|split; [vm_compute; reflexivity|split; [apply on_execution|vm_compute; reflexivity]]].
  exists (take 17 (y_log (on x_load))), 0, (6%N : V SH), (drop 18 (y_log (on x_load))), 1. split; [vm_compute; reflexivity|].
  split; [is_at 9|]. split; [apply not_noted|apply not_returned]; vm_compute; reflexivity.
Qed.
