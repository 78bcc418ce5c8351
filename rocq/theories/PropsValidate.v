(* The self-check that the project's tests and fuzzers run on the cache (Validate.v) succeeds: C47. *)
From stdpp Require Import prelude list.
From Verif Require Import Reach ValidateProofs SeqProofs SeqProofs2 SeqProofs3 SeqProofs4 SeqProofs5 Demo.
From Verif Require Import ConcEnd DemoConc.

(* After every history of calls on the unsync cache, validate(true) succeeds, as long as the weights add
   up to less than 2^64. *)
Theorem C47_self_check : ∀ (P : Params), Lawful P → ∀ budget ghosts cap (h : list (cmd P)) os s,
  history budget ghosts cap h os s → (wsum (sh_iter s) < two64)%N → validate true s = Ok ().
Proof.
  intros P LW budget ghosts cap h os s H Hw. destruct (history_inv LW _ _ _ _ _ _ H) as [HI _].
  apply (validate_ok true s HI Hw). by left.
Qed.
Print Assumptions C47_self_check.
(* validate(false) fails exactly when the items that are not pinned weigh more than the capacity *)
Theorem C47_strict_check : ∀ (P : Params), Lawful P → ∀ budget ghosts cap (h : list (cmd P)) os s,
  history budget ghosts cap h os s → (wsum (sh_iter s) < two64)%N →
  validate false s = if (uwsum (sh_iter s) <=? cap)%N then Ok () else Fail Panic.
Proof.
  intros P LW budget ghosts cap h os s H Hw. destruct (history_inv LW _ _ _ _ _ _ H) as [HI Hcfg].
  unfold cfg in Hcfg. injection Hcfg as _ Hcap _. destruct (N.leb_spec (uwsum (sh_iter s)) cap).
  - apply (validate_ok false s HI Hw). right. by rewrite Hcap.
  - apply (validate_overweight s HI Hw). by rewrite Hcap.
Qed.
Print Assumptions C47_strict_check.
(* which never happens when no change in place raises a weight or unpins an item *)
Theorem C47_strict_check_passes : ∀ (P : Params), Lawful P → ∀ budget ghosts cap (h : list (cmd P)) os s,
  (budget ≤ cap)%N → Forall no_growth_unpin h → history budget ghosts cap h os s → (wsum (sh_iter s) < two64)%N →
  validate false s = Ok ().
Proof.
  intros P LW budget ghosts cap h os s Hb Hg H Hw. rewrite (C47_strict_check P LW _ _ _ _ _ _ H Hw).
  pose proof (history_uwsum LW _ _ _ _ _ _ Hb Hg H). by destruct (N.leb_spec (uwsum (sh_iter s)) cap); [|lia].
Qed.
Print Assumptions C47_strict_check_passes.
(* In every execution of the sync cache by any number of threads and futures, at every moment, the
   strict check of every shard succeeds: also in the middle of loads. *)
Theorem C47_concurrent : ∀ (P : Params), Lawful P → ptr_ids P = true → ∀ dbg budget ghosts cap e ls (y : sys P) j s,
  execution dbg budget ghosts cap e ls y → sc_shards (y_cache y) !! j = Some s → (budget ≤ cap)%N → (wsum (sh_iter s) < two64)%N →
  validate false s = Ok ().
Proof.
  intros P LW PI dbg budget ghosts cap e ls y j s H Hs Hb Hw. destruct (ginv LW PI _ _ _ H) as [HR _].
  destruct (ci_inv _ _ _ _ _ (rc_c _ HR) j s Hs) as [HI Hcfg]. unfold cfg in Hcfg. injection Hcfg as _ Hcap _.
  apply (validate_ok false s HI Hw). right. rewrite Hcap. exact (so_bound _ _ _ _ (reach_sound LW _ _ _ HR Hs) Hb).
Qed.
Print Assumptions C47_concurrent.
Example C47_example :
  (* free slots, ghosts, pinned items and hot items *)
  validate true (state_of 10 3 14 mixed) = Ok () ∧ (wsum (sh_iter (state_of 10 3 14 mixed)) < two64)%N ∧
  validate false (state_of 10 3 14 plainh) = Ok () ∧
  (* in the middle of a load *)
  (∀ s, s ∈ sc_shards (y_cache (on (take 9 x_load))) → validate false s = Ok () ∧ (wsum (sh_iter s) < two64)%N).
Proof.
  split; [vm_compute; reflexivity|]. split; [vm_compute; reflexivity|]. split; [vm_compute; reflexivity|].
  assert (forallb (λ s, match validate false s with Ok _ => true | _ => false end && (wsum (sh_iter s) <? two64)%N) (sc_shards (y_cache (on (take 9 x_load)))) = true) as H by computed.
  intros s Hs. rewrite forallb_forall in H. apply elem_of_list_In in Hs. apply H in Hs. apply andb_true_iff in Hs as [H1 H2].
  split; [|by apply N.ltb_lt]. by destruct (validate false s) as [[]|].
Qed.
(* a check that fails: get_mut made an item heavier than the capacity *)
Example C47_overweight :
  let h := [ins (P:=W) 0 1 4; ins (P:=W) 0 2 5; CGetMut (P:=W) 1 (λ v, v + 20)]%N in let s := state_of 10 3 14 h in
  history 10 3 14 h (outs_of 10 3 14 h) s ∧ validate true s = Ok () ∧ validate false s = Fail Panic.
Proof. split; [vm_compute; reflexivity|]. split; vm_compute; reflexivity. Qed.
