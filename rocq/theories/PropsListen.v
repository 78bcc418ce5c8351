(* C62: listening does not change what is heard. The translation is in Listen.v. *)
From Verif Require Import PropsPolicy ListenProofs ListenState DemoSync DemoScan.

(* Two caches that differ in their lifecycles only, whose before_evict hooks put the same values:
   the same calls, with whatever request states, return the same results (up to the order in which
   drain returns the items), make the same hook calls in the same order, call the same loaders, and
   leave the same items. *)
Theorem C62_listener : ∀ (P : Params), Lawful P →
  ∀ (R : Type) b o, same_values P R b →
  ∀ budget ghosts cap (calls : list (cmd P)) (calls' : list (cmd (listened P R b o))) os s os' s',
  no_collisions P (omap names calls) → Forall2 same_call calls calls' →
  history budget ghosts cap calls os s → history (P:=listened P R b o) budget ghosts cap calls' os' s' →
  Forall2 same_result os os' ∧ (sh_iter s' : list (K P * V P)) ≡ₚ sh_iter s.
Proof.
  intros P LW R b o SV budget ghosts cap calls calls' os s os' s' NC Hc H H'.
  destruct (C49_policy P LW _ _ _ _ _ _ H) as (q & Hq & Hi).
  destruct (j_psteps (b:=b) (o:=o) SV _ _ _ _ _ Hq _ Hc) as (zs & Hz & Hsame).
  destruct (C49_only _ (law_listened P R b o LW) _ _ _ _ _ _ _ _ (eq_rect_r (no_collisions _) NC (same_names _ _ Hc)) H' Hz) as [Ho Hi']. split.
  - clear -Hsame Ho. revert os' Ho. induction Hsame as [|z z' os zs Hz _ IH]; intros os' Ho; inversion Ho; subst; constructor; [by eapply same_trans|by apply IH].
  - rewrite jp_items, j_pairs in Hi'. etrans; [exact Hi'|]. by symmetry.
Qed.
Print Assumptions C62_listener.

(* A lifecycle that collects the evicted pairs in place of the one of DemoScan.v, which counts
   them: the hypotheses hold for the history of C49_example, in which five items were evicted. *)
Notation collector := (listened D (list (N * N)) (λ r _ v, (r, v)) (λ r k v, r ++ [(k, v)])).
Definition collected : list (cmd collector) := with_state [] <$> policy_calls.
Definition collections (os : list (out collector)) : list (N * N) :=
  flat_map (λ x, flat_map (λ e : lev collector, match e with LEnd r => r | _ => [] end) (o_log x)) os.
Example C62_example :
  same_values D (list (N * N)) (λ r _ v, (r, v)) ∧ no_collisions D (omap (M:=list) (names (P:=D)) policy_calls) ∧
  Forall2 same_call policy_calls collected ∧
  history (P:=D) 8%N 5%N 12%N policy_calls (outs_of 8 5 12 policy_calls) (state_of 8 5 12 policy_calls) ∧
  history (P:=collector) 8%N 5%N 12%N collected (outs_of 8 5 12 collected) (state_of 8 5 12 collected) ∧
  collections (outs_of 8 5 12 collected)
    = [(1, 4); (4, 2); (5, 2); (6, 3); (2, 4)]%N.
Proof.
  split; [done|]. split; [intros k k' _ _ H; simpl in *; subst; apply N.eqb_refl|].
  split; [unfold collected; apply Forall2_fmap_r, Forall_Forall2_diag, Forall_forall; intros c _; by exists []|].
  split; [vm_compute; reflexivity|]. split; vm_compute; reflexivity.
Qed.

(* One lifecycle, whose before_evict puts values that do not depend on the request state: the same
   calls with other request states succeed too, leave the very same cache, and return the same
   results, make the same hook calls in the same order, and call the same loaders, even when the
   hashes of keys collide. *)
Theorem C62_states : ∀ (P : Params), state_blind P →
  ∀ budget ghosts cap (calls calls' : list (cmd P)) os s,
  Forall2 same_but_state calls calls' → history budget ghosts cap calls os s →
  ∃ os', history budget ghosts cap calls' os' s ∧ Forall2 same_seen os os'.
Proof. intros P SB budget ghosts cap calls calls' os s Hc H. exact (q_run SB _ _ Hc _ _ _ H). Qed.
Print Assumptions C62_states.

(* The history of C49_example with the request states 100, and the states the hooks make of them. *)
Definition restated : list (cmd D) := restate (P:=D) 100%N <$> policy_calls.
Definition ends (os : list (out D)) : list N :=
  flat_map (λ x, flat_map (λ e : lev D, match e with LEnd r => [r] | _ => [] end) (o_log x)) os.
Example C62_states_example :
  state_blind D ∧ Forall2 same_but_state policy_calls restated ∧
  history (P:=D) 8%N 5%N 12%N policy_calls (outs_of 8 5 12 policy_calls) (state_of 8 5 12 policy_calls) ∧
  history (P:=D) 8%N 5%N 12%N restated (outs_of 8 5 12 restated) (state_of 8 5 12 policy_calls) ∧
  ends (outs_of 8 5 12 policy_calls) ≠ ends (outs_of 8 5 12 restated).
Proof.
  split; [done|].
  split; [unfold restated; apply Forall2_fmap_r, Forall_Forall2_diag, Forall_forall; intros c _; by exists 100%N|].
  split; [vm_compute; reflexivity|]. split; [vm_compute; reflexivity|]. vm_compute. discriminate.
Qed.

(* The same for the sync cache used by one thread at a time. *)
Theorem C62_states_sync : ∀ (P : Params), state_blind P →
  ∀ budget ghosts cap e (calls calls' : list (scmd P)) os c,
  Forall2 s_same_but_state calls calls' → s_history budget ghosts cap e calls os c →
  ∃ os', s_history budget ghosts cap e calls' os' c ∧ Forall2 same_seen os os'.
Proof. intros P SB budget ghosts cap e calls calls' os c Hc H. exact (q_s_history SB _ _ _ _ _ _ _ _ Hc H). Qed.
Print Assumptions C62_states_sync.

(* A history on two shards, in which items were evicted, with the request states 100. *)
Definition s_restated : list (scmd SW) := s_restate (P:=SW) 100%N <$> splain.
Definition s_ends (os : list (out SW)) : list N :=
  flat_map (λ x, flat_map (λ e : lev SW, match e with LEnd r => [r] | _ => [] end) (o_log x)) os.
Example C62_states_sync_example :
  state_blind SW ∧ Forall2 s_same_but_state splain s_restated ∧
  s_history (P:=SW) 6%N 3%N 8%N 1%N splain (souts_of 6 3 8 1 splain) (sstate_of 6 3 8 1 splain) ∧
  s_history (P:=SW) 6%N 3%N 8%N 1%N s_restated (souts_of 6 3 8 1 s_restated) (sstate_of 6 3 8 1 splain) ∧
  s_ends (souts_of 6 3 8 1 splain) ≠ s_ends (souts_of 6 3 8 1 s_restated) ∧
  flat_map (λ x : out SW, heard (o_log x)) (souts_of 6 3 8 1 splain) ≠ [].
Proof.
  split; [done|].
  split; [unfold s_restated; apply Forall2_fmap_r, Forall_Forall2_diag, Forall_forall; intros c _; by exists 100%N|].
  split; [split; [exact splain_api|vm_compute; reflexivity]|].
  split; [split; [repeat (apply Forall_cons; split; [by simpl; eauto 6|]); by apply Forall_nil|vm_compute; reflexivity]|].
  split; vm_compute; discriminate.
Qed.
