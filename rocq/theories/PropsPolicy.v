(* C49: the replacement policy. The machine is in Policy.v. *)
From Verif Require Import PolicyStep PolicyDet DemoScan.

(* Whatever the history, the results of the calls, with the evictions they report and the order
   of these, are results of the machine on lists, and the cached items are the items of the
   machine. *)
Theorem C49_policy : ∀ (P : Params), Lawful P →
  ∀ budget ghosts cap (h : list (cmd P)) os s,
  history budget ghosts cap h os s →
  ∃ q, psteps (Limits budget ghosts cap) q_empty h os q ∧
    sh_iter s ≡ₚ map (λ x, (r_key x, r_val x)) (q_items q).
Proof.
  intros P LW budget ghosts cap h os s H.
  destruct (run_sim LW _ h _ _ s os (rel_new budget ghosts cap) H) as (q & Hq & HR).
  exists q. split; [done|]. by eapply rel_iter.
Qed.
Print Assumptions C49_policy.

(* The machine leaves no choice: when different keys that the history may store or remove have
   different hashes, it gives one result for each call (up to the order in which drain returns the
   items) and ends in one state. So the history has the results it has on the machine, and no others are allowed. *)
Theorem C49_only : ∀ (P : Params), Lawful P →
  ∀ budget ghosts cap (h : list (cmd P)) os s os' q, no_collisions P (omap names h) →
  history budget ghosts cap h os s → psteps (Limits budget ghosts cap) q_empty h os' q →
  Forall2 same_out os os' ∧ sh_iter s ≡ₚ map (λ x, (r_key x, r_val x)) (q_items q).
Proof.
  intros P LW budget ghosts cap h os s os' q Hinj H Hq'.
  destruct (run_sim LW _ h _ _ s os (rel_new budget ghosts cap) H) as (q0 & Hq & HR).
  destruct (psteps_det LW (λ k, k ∈ omap names h) Hinj _ _ (λ k Hk, Hk) _ _ _ _ _ (W_empty _) Hq Hq') as [Ho ->]. split; [done|]. by eapply rel_iter.
Qed.
Print Assumptions C49_only.

(* Inserts past the hot budget and past the capacity, an item of the cold list that is read and
   promoted, an item that comes back as a ghost, a load, a replace and a retain: the hypotheses
   of both theorems hold, and the hands of both lists took items out. *)
Example C49_example :
  history (P:=D) 8%N 5%N 12%N policy_calls (outs_of 8 5 12 policy_calls) (state_of 8 5 12 policy_calls) ∧
  no_collisions D (omap names policy_calls) ∧
  evictions (outs_of 8 5 12 policy_calls) = [(1, 4); (4, 2); (5, 2); (6, 3); (2, 4)]%N ∧
  sh_iter (state_of 8 5 12 policy_calls) = [(8, 5); (3, 2); (4, 3); (9, 2)]%N.
Proof.
  split; [vm_compute; reflexivity|]. split; [|split; vm_compute; reflexivity].
  intros k k' _ _ H. simpl in *. subst. apply N.eqb_refl.
Qed.
