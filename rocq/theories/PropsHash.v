(* C61: the hasher does not matter. The translation is in Rehash.v. *)
From Verif Require Import PropsPolicy RehashProofs DemoHash.

(* Two caches with the same limits, weigher and lifecycle but with different hashers and hash
   tables, such that no two different keys the calls may store or remove collide under either: the same calls return the same results, report
   the same evictions in the same order (up to the order in which drain returns the items), and
   leave the same items. *)
Theorem C61_hasher : ∀ (P : Params), Lawful P →
  ∀ h pr ti gr, Lawful (rehashed P h pr ti gr) →
  ∀ budget ghosts cap (calls : list (cmd P)) os s os' s',
  no_collisions P (omap names calls) → no_collisions (rehashed P h pr ti gr) (omap names calls) →
  history budget ghosts cap calls os s →
  history (P:=rehashed P h pr ti gr) budget ghosts cap (re_cmd <$> calls) os' s' →
  Forall2 same_out os' (re_out <$> os) ∧ (sh_iter s' : list (K P * V P)) ≡ₚ sh_iter s.
Proof.
  intros P LW h pr ti gr LW' budget ghosts cap calls os s os' s' NC NC' H H'.
  destruct (C49_policy P LW _ _ _ _ _ _ H) as (q & Hq & Hi).
  destruct (r_psteps (h:=h) (pr:=pr) (ti:=ti) (gr:=gr) LW LW' (λ k, k ∈ omap names calls) NC NC' _ _ _ _ _ Hq (W_empty _) (λ k Hk, Hk) [] (gh_nil _)) as (G & Hr & _).
  destruct (C49_only _ LW' _ _ _ _ _ _ _ _ (eq_rect_r (no_collisions _) NC' (re_names calls)) H' Hr) as [Ho Hi']. split; [exact Ho|].
  rewrite rp_items, r_pairs in Hi'. etrans; [exact Hi'|]. by symmetry.
Qed.
Print Assumptions C61_hasher.

(* Without the hypotheses on collisions this is false: a key whose hash is that of an evicted item
   is taken for it and enters the hot list, which puts another item at risk. *)
Theorem C61_collisions_refuted : ∃ (P : Params) h pr ti gr budget ghosts cap (calls : list (cmd P)) os s os' s',
  Lawful P ∧ Lawful (rehashed P h pr ti gr) ∧
  history budget ghosts cap calls os s ∧ history (P:=rehashed P h pr ti gr) budget ghosts cap (re_cmd <$> calls) os' s' ∧
  ¬ (sh_iter s' : list (K P * V P)) ≡ₚ sh_iter s.
Proof.
  exists D, zero, (probe D), backwards, frugal, 8%N, 5%N, 12%N, crossing, (outs_of 8 5 12 crossing), (state_of 8 5 12 crossing),
    (outs_of 8 5 12 crossing0), (state_of 8 5 12 crossing0).
  split; [exact lawD|]. split; [exact (law_rehashed zero)|]. split; [vm_compute; reflexivity|]. split; [vm_compute; reflexivity|].
  intros H. assert ((1, 4)%N ∈ (sh_iter (state_of (P:=D) 8 5 12 crossing) : list (N * N))) as Hin
    by (vm_compute; constructor).
  rewrite <-H in Hin. revert Hin. vm_compute. intros Hin. apply elem_of_list_In in Hin. cbn in Hin.
  destruct Hin as [Hin|[Hin|[Hin|[]]]]; discriminate.
Qed.
Print Assumptions C61_collisions_refuted.

(* The history of C49_example with another hasher, under which other keys do collide, and a hash table that is walked backwards and
   never enlarged: the hypotheses hold, and five items were evicted. *)
Example C61_example :
  Lawful D3 ∧ no_collisions D (omap (M:=list) (names (P:=D)) policy_calls) ∧ no_collisions D3 (omap (M:=list) (names (P:=D)) policy_calls) ∧
  history (P:=D) 8%N 5%N 12%N policy_calls (outs_of 8 5 12 policy_calls) (state_of 8 5 12 policy_calls) ∧
  history (P:=D3) 8%N 5%N 12%N (re_cmd <$> policy_calls) (outs_of 8 5 12 policy_calls3) (state_of 8 5 12 policy_calls3) ∧
  DemoScan.evictions (outs_of 8 5 12 policy_calls) = [(1, 4); (4, 2); (5, 2); (6, 3); (2, 4)]%N ∧
  (hash D 4 = 4 ∧ hash D3 4 = 13 ∧ hash D3 101 = 13)%N.
Proof.
  split; [exact (law_rehashed tripled)|]. split; [intros k k' _ _ H; simpl in *; subst; apply N.eqb_refl|].
  split; [apply few_keys; vm_compute; reflexivity|].
  split; [vm_compute; reflexivity|]. split; [vm_compute; reflexivity|]. split; vm_compute; [reflexivity|split_and!; reflexivity].
Qed.
