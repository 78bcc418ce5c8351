(* Property C58: the work of evictions. *)
From Verif Require Import Reach SeqProofs5 WorkProofs WorkPins Demo.

(* ---- C58 ---- *)
(* The program whose calls of user code are counted is the program. *)
Theorem C58_same_program : ∀ (P : Params) (s : shard P) (m : cmd P), (w_exec s m).2 = exec s m.
Proof. intros. apply er_w_exec. Qed.
Print Assumptions C58_same_program.
(* While nothing is pinned, evictions look at no more than five cached items per call, on average
   over all the calls made on a cache, whatever its size and whatever the calls are. *)
Theorem C58_amortized : ∀ (P : Params), Lawful P → (∀ k v, pinned P k v = false) →
  ∀ budget ghosts cap (h : list (cmd P)),
  (effort looks (sh_new budget ghosts cap) h ≤ 5 * N.of_nat (length h))%N.
Proof.
  intros P LW NP budget ghosts cap h.
  pose proof (w_history LW NP looks 1 ltac:(by intros []) ltac:(done) ltac:(done) h (sh_new budget ghosts cap)) as H.
  rewrite w_new in H. apply H. apply sh_new_inv.
Qed.
Print Assumptions C58_amortized.
(* Nor do they call user code on behalf of these items more than fifteen times per call. *)
Theorem C58_user_code : ∀ (P : Params), Lawful P → (∀ k v, pinned P k v = false) →
  ∀ budget ghosts cap (h : list (cmd P)),
  (effort handles (sh_new budget ghosts cap) h ≤ 15 * N.of_nat (length h))%N.
Proof.
  intros P LW NP budget ghosts cap h.
  pose proof (w_history LW NP handles 6 ltac:(done) ltac:(done) ltac:(done) h (sh_new budget ghosts cap)) as H.
  rewrite w_new in H. apply H. apply sh_new_inv.
Qed.
Print Assumptions C58_user_code.
(* A single call may pay for the calls before it: it looks at no more than four times the number of
   cached items, and five. *)
Theorem C58_one_call : ∀ (P : Params), Lawful P → (∀ k v, pinned P k v = false) →
  ∀ budget ghosts cap (h : list (cmd P)) os s, history budget ghosts cap h os s →
  ∀ m, (call_effort looks s m ≤ 4 * N.of_nat (length (sh_iter s)) + 5)%N.
Proof.
  intros P LW NP budget ghosts cap h os s Hh m. destruct (history_inv LW _ _ _ _ _ _ Hh) as [HI _]. rewrite <-(len_exact s HI).
  exact (w_single LW NP looks 1 ltac:(by intros []) ltac:(done) ltac:(done) s m HI).
Qed.
Print Assumptions C58_one_call.
(* With pinned items it is different. An insert that leaves the cache heavier than its capacity has
   looked at every cached item that weighs something, except perhaps the one it brought. *)
Theorem C58_too_heavy : ∀ (P : Params), Lawful P → ∀ budget ghosts cap (h : list (cmd P)) os s rs k v wl s' o,
  history budget ghosts cap h os s → exec s (CInsert rs k v wl) = Ok (s', o) → ¬ refused budget rs k v →
  (cap < wsum (sh_iter s'))%N →
  (N.of_nat (length (filter (λ kv, weight P kv.1 kv.2 ≠ 0%N) (sh_iter s'))) ≤ call_effort looks s (CInsert rs k v wl) + 1)%N.
Proof. intros P LW budget ghosts cap h os s rs k v wl s' o. apply (insert_looks LW). Qed.
Print Assumptions C58_too_heavy.
(* So pinned items are looked at again and again, and no constant bounds the average (up to 2^30:
   a cache has no more than 2^32 slots). *)
Theorem C58_pinned_refuted : ∃ (P : Params), Lawful P ∧ ∀ c, (c ≤ 2 ^ 30)%N → ∃ budget ghosts cap (h : list (cmd P)),
  (c * N.of_nat (length h) < effort looks (sh_new budget ghosts cap) h)%N.
Proof. exists Y. split; [apply lawY|]. intros c Hc. destruct (pins_beat c Hc) as [n H]. exists 5%N, 5%N, 5%N, (pins n). exact H. Qed.
Print Assumptions C58_pinned_refuted.

(* A cache for eight items that is used for forty, read in between: evictions look at items, and
   more than once at some. *)
Definition churn : list (cmd U) :=
  concat ((λ i, [ins (P:=U) 0%N (N.of_nat i) 1%N; CGet (P:=U) (N.of_nat i / 2)%N; CGet (P:=U) (N.of_nat i)]) <$> seq 0 40).
Example C58_amortized_ex : Lawful U ∧ (∀ k v, pinned U k v = false) ∧ length churn = 120 ∧
  (40 ≤ effort looks (sh_new 6 4 8) churn)%N.
Proof. split; [apply lawU|]. split; [done|]. split; [done|]. by vm_compute. Qed.
Example C58_one_call_ex : ∃ os s, history (P:=U) 6 4 8 churn os s ∧ ∃ m, (2 ≤ call_effort looks s m)%N.
Proof.
  exists (outs_of 6 4 8 churn), (state_of 6 4 8 churn). split; [by vm_compute|].
  exists (ins (P:=U) 0%N 99%N 1%N). by vm_compute.
Qed.
(* eight pinned items in a cache for five: the ninth insert looks at the eight *)
Example C58_too_heavy_ex : ∃ os s, history (P:=Y) 5 5 5 (pins 8) os s ∧ call_effort looks s (ins (P:=Y) 0%N 8%N 0%N) = 8%N ∧
  match exec s (ins (P:=Y) 0%N 8%N 0%N) with Ok (s', _) => (5 < wsum (sh_iter s'))%N ∧ length (sh_iter s') = 9 | Fail _ => False end.
Proof.
  exists (outs_of 5 5 5 (pins 8)), (state_of 5 5 5 (pins 8)). split; [by vm_compute|]. by vm_compute.
Qed.
