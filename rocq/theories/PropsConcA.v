(* Guards, waiters and hand-offs of the sync cache used by many threads and futures: C32 to C36.
   Each theorem is about every execution of Conc.v: any number of callers, every interleaving, the
   passing of time, spurious wake-ups, cancelled futures. The log of an execution is the list of what
   happened, in order; ConcSpec.v defines who is in charge of a load (a guard, or a hand-off that is
   under way), who waits for it, and who was notified. *)
From stdpp Require Import prelude list.
From Verif Require Import ConcLast DemoConc.

(* ---- C32: at most one guard per load; one per key, unless a call cancels the load ---- *)
Theorem C32_one_in_charge : ∀ (P : Params), Lawful P → ptr_ids P = true → ∀ dbg budget ghosts cap e ls (y : sys P) l a b,
  execution dbg budget ghosts cap e ls y → in_charge (y_log y) l a → in_charge (y_log y) l b → a = b.
Proof. intros P LW PI dbg budget ghosts cap e ls y l a b H. destruct (ginv LW PI _ _ _ H) as [HR _]. exact (charge_one _ _ _ _ HR). Qed.
Print Assumptions C32_one_in_charge.
Theorem C32_one_live_guard : ∀ (P : Params), Lawful P → ptr_ids P = true → ∀ dbg budget ghosts cap e ls (y : sys P) l a b,
  execution dbg budget ghosts cap e ls y → guard_held y l a →
  in_charge (y_log y) l a ∧ (guard_held y l b → b = a) ∧ (in_charge (y_log y) l b → b = a).
Proof.
  intros P LW PI dbg budget ghosts cap e ls y l a b H Hg. destruct (ginv LW PI _ _ _ H) as [HR _]. pose proof (guard_charge _ _ _ HR Hg) as Hc.
  split; [done|]. split; [intros Hb; pose proof (guard_charge _ _ _ HR Hb)|intros]; by eapply charge_one.
Qed.
Print Assumptions C32_one_live_guard.
(* the second load of a key was started while somebody is in charge of the first: in between, a call
   removed or overwrote the key or cleared the cache *)
Theorem C32_one_per_key : ∀ (P : Params), Lawful P → ptr_ids P = true → ∀ dbg budget ghosts cap e ls (y : sys P) ga c1 j1 k1 id1 gb c2 j2 k2 id2 gc a,
  execution dbg budget ghosts cap e ls y →
  y_log y = ga ++ (c1, EvSec j1 (OJoin k1) (SNew id1)) :: gb ++ (c2, EvSec j2 (OJoin k2) (SNew id2)) :: gc →
  keqb P k1 k2 = true → in_charge (y_log y) (j1, id1) a → j1 = j2 ∧ cancelled budget gb j1 k1.
Proof.
  intros P LW PI dbg budget ghosts cap e ls y ga c1 j1 k1 id1 gb c2 j2 k2 id2 gc a H E Hk Hc. destruct (ginv LW PI _ _ _ H) as [HR HG].
  by eapply (per_key LW).
Qed.
Print Assumptions C32_one_per_key.
(* without such a call two guards of the same key cannot be held; with one they can *)
Theorem C32_two_guards_refuted : ∃ ls (y : sys SH), execution true 10 3 14 1 ls y ∧
  (0%nat, EvSec 1 (OJoin (P:=SH) 5%N) (SNew 0%N)) ∈ y_log y ∧ (2%nat, EvSec 1 (OJoin (P:=SH) 5%N) (SNew 1%N)) ∈ y_log y ∧
  guard_held y (1%nat, 0%N) 0 ∧ guard_held y (1%nat, 1%N) 2.
Proof.
  exists (on_ls x_two), (on x_two). split; [apply on_execution|]. split; [is_at 2|]. split; [is_at 9|].
  split; eexists _, _, _; (split; [vm_compute; reflexivity|]); split; vm_compute; reflexivity.
Qed.
Print Assumptions C32_two_guards_refuted.
Example C32_example : ∃ a, guard_held (on x_pass) (1%nat, 0%N) a ∧ ∀ b, in_charge (y_log (on x_pass)) (1%nat, 0%N) b → b = a.
Proof.
  exists 1. assert (guard_held (on x_pass) (1%nat, 0%N) 1) as H.
  { eexists _, _, _; (split; [vm_compute; reflexivity|]); split; vm_compute; reflexivity. }
  split; [exact H|]. intros b. by apply (C32_one_live_guard SH lawSH eq_refl _ _ _ _ _ _ _ _ _ b (on_execution x_pass) H).
Qed.

(* ---- C33: waiters are never forgotten ---- *)
(* whoever waits: somebody whose call has not returned yet is in charge, or has provided the value
   and is about to notify *)
Theorem C33_someone_responsible : ∀ (P : Params), Lawful P → ptr_ids P = true → ∀ dbg budget ghosts cap e ls (y : sys P) l b,
  execution dbg budget ghosts cap e ls y → waiting (y_log y) l b →
  ∃ a, ¬ returned (y_log y) a ∧ (in_charge (y_log y) l a ∨ ∃ v, (a, EvPut l v) ∈ y_log y).
Proof. intros P LW PI dbg budget ghosts cap e ls y l b H. destruct (ginv LW PI _ _ _ H) as [HR _]. exact (waiting_someone _ _ _ HR). Qed.
Print Assumptions C33_someone_responsible.
(* the queue of a load consists of agents that wait for it *)
Theorem C33_queued_wait : ∀ (P : Params), Lawful P → ptr_ids P = true → ∀ dbg budget ghosts cap e ls (y : sys P) l b t,
  execution dbg budget ghosts cap e ls y → (b, t) ∈ waiting_on y l → waiting (y_log y) l b.
Proof. intros P LW PI dbg budget ghosts cap e ls y l b t H. destruct (ginv LW PI _ _ _ H) as [HR _]. exact (queue_waiting _ _ _ _ HR). Qed.
Print Assumptions C33_queued_wait.
(* when no agent can move and somebody waits, the program holds the guard, or has been woken to poll
   the future that was given it *)
Theorem C33_no_stranded_waiter : ∀ (P : Params), Lawful P → ptr_ids P = true → ∀ dbg budget ghosts cap e ls (y : sys P) l b,
  execution dbg budget ghosts cap e ls y → at_rest dbg y → waiting (y_log y) l b →
  ∃ a, in_charge (y_log y) l a ∧ (guard_held y l a ∨ woken_future y l a).
Proof. intros P LW PI dbg budget ghosts cap e ls y l b H. destruct (ginv LW PI _ _ _ H) as [HR _]. exact (rest_waiting _ _ _ _ HR). Qed.
Print Assumptions C33_no_stranded_waiter.
(* the agents cannot move forever: what they can do by themselves is bounded, and they get to such a
   state (or to a step that panics: no memory, or the weights overflow) *)
Theorem C33_runs_end : ∀ (P : Params), Lawful P → ptr_ids P = true → ∀ dbg budget ghosts cap e ls (y : sys P),
  execution dbg budget ghosts cap e ls y →
  (∃ n, ∀ ls' y', only_go ls' → steps dbg y ls' y' → length ls' ≤ n) ∧
  (∃ ls' y', only_go ls' ∧ steps dbg y ls' y' ∧ (at_rest dbg y' ∨ ∃ a f, go dbg y' a = Some (Fail f))).
Proof.
  intros P LW PI dbg budget ghosts cap e ls y H. destruct (ginv LW PI _ _ _ H) as [HR _]. split; [|exact (settles LW PI _ _ HR)].
  exists (ConcLive.total y). intros ls' y' Ho Hs. destruct (steps_cons_go LW PI _ _ _ _ HR Ho Hs) as [_ Hle]. lia.
Qed.
Print Assumptions C33_runs_end.
(* dropping the guard gives it to exactly one of those who wait, or to nobody if nobody waits *)
Theorem C33_drop_gives_one : ∀ (P : Params), Lawful P → ptr_ids P = true → ∀ dbg budget ghosts cap e ls (y : sys P) g1 a l b g2,
  execution dbg budget ghosts cap e ls y → y_log y = g1 ++ (a, EvGive l b) :: g2 →
  in_charge g1 l a ∧ waiting g1 l b ∧ ¬ trusted g1 l b ∧ in_charge (g1 ++ [(a, EvGive l b)]) l b ∧
  (∀ b', (a, EvGive l b') ∈ y_log y → b' = b) ∧ (∀ d, (d, EvGive l b) ∈ y_log y → d = a).
Proof.
  intros P LW PI dbg budget ghosts cap e ls y g1 a l b g2 H E. destruct (ginv LW PI _ _ _ H) as [HR HG]. pose proof (gi_proper _ HG) as Hp.
  destruct (Hp _ _ _ _ E) as (H1 & H2 & H3). split; [done|]. split; [done|]. split; [done|]. split; [|split].
  - split; [right; exists a; apply snoc_in; by right|]. intros Hs. apply settled_snoc in Hs as [Hs|[-> _]].
    + apply H3. eapply plog_settled; [|done]. rewrite E in Hp. by eapply proper_prefix.
    + apply H3, H1.
  - intros b' Hb. assert ((a, EvGive l b) ∈ y_log y) as Ha by (rewrite E; apply elem_of_app; right; left).
    assert (EvGive (P:=P) l b' = EvGive l b) as [=]; [|done]. eapply settles_once; [exact Hp| | |exact Hb|exact Ha]; right; left; eauto.
  - intros d Hd. destruct (plog_give_one _ _ _ _ d _ _ Hp E) as [N1 N2]. rewrite E in Hd. apply elem_of_app in Hd as [Hd|Hd]; [done|].
    apply elem_of_cons in Hd as [Hd|Hd]; [by injection Hd|done].
Qed.
Print Assumptions C33_drop_gives_one.
Theorem C33_drop_ends_only_unwaited : ∀ (P : Params), Lawful P → ptr_ids P = true → ∀ dbg budget ghosts cap e ls (y : sys P) a,
  execution dbg budget ghosts cap e ls y →
  ((a, EvRet RetDrop) ∈ y_log y → ∃ l, (∃ b, (a, EvGive l b) ∈ y_log y) ∨ (a, EvEnd l) ∈ y_log y) ∧
  (∀ g1 l g2, y_log y = g1 ++ (a, EvEnd l) :: g2 → in_charge g1 l a ∧ ∀ b, ¬ waiting g1 l b).
Proof.
  intros P LW PI dbg budget ghosts cap e ls y a H. destruct (ginv LW PI _ _ _ H) as [HR HG]. split; [exact (drop_life _ _ HR)|].
  intros g1 l g2 E. exact (gi_proper _ HG _ _ _ _ E).
Qed.
Print Assumptions C33_drop_ends_only_unwaited.
(* insert notifies everybody before it returns; nobody waits from then on *)
Theorem C33_insert_releases_all : ∀ (P : Params), Lawful P → ptr_ids P = true → ∀ dbg budget ghosts cap e ls (y : sys P) g1 a r g2 l v b,
  execution dbg budget ghosts cap e ls y → y_log y = g1 ++ (a, EvRet r) :: g2 → (a, EvPut l v) ∈ g1 →
  ¬ waiting g1 l b ∧ ¬ waiting (y_log y) l b.
Proof.
  intros P LW PI dbg budget ghosts cap e ls y g1 a r g2 l v b H E Hp. destruct (ginv LW PI _ _ _ H) as [HR HG].
  destruct (gi_proper _ HG _ _ _ _ E) as (_ & _ & Hw & _). split; [by eapply Hw|]. intros Hb.
  destruct (waiting_someone _ _ _ HR Hb) as (d & Hd & [Hc|[v' Hput]]).
  - destruct (plog_charge _ (gi_proper _ HG) l) as [_ Hn]. eapply Hn; [|exact Hc]. left. exists a, v. rewrite E. apply elem_of_app. by left.
  - assert ((a, EvPut l v) ∈ y_log y) as Ha by (rewrite E; apply elem_of_app; by left).
    destruct (put_one _ _ _ _ _ _ HG Hput Ha) as [-> _]. apply Hd. exists r. rewrite E. apply elem_of_app. right; left.
Qed.
Print Assumptions C33_insert_releases_all.
(* and once the agents have come to rest all who queued up have returned, or are futures that were
   woken to be polled *)
Theorem C33_value_reaches_all : ∀ (P : Params), Lawful P → ptr_ids P = true → ∀ dbg budget ghosts cap e ls (y : sys P) l a v b,
  execution dbg budget ghosts cap e ls y → at_rest dbg y → (a, EvPut l v) ∈ y_log y → (b, EvWait l) ∈ y_log y →
  returned (y_log y) b ∨ woken_future y l b.
Proof. intros P LW PI dbg budget ghosts cap e ls y l a v b H. destruct (ginv LW PI _ _ _ H) as [HR HG]. exact (released _ _ _ _ _ _ HR HG). Qed.
Print Assumptions C33_value_reaches_all.
Example C33_example :
  (at_rest true (on (take 6 x_give)) ∧ waiting (y_log (on (take 6 x_give))) (1%nat, 0%N) 1 ∧ guard_held (on (take 6 x_give)) (1%nat, 0%N) 0) ∧
  ((0, EvGive (P:=SH) (1%nat, 0%N) 2) ∈ y_log (on x_give)) ∧
  ((0, EvPut (P:=SH) (1%nat, 0%N) 6%N) ∈ y_log (on x_load) ∧ (1, EvWait (P:=SH) (1%nat, 0%N)) ∈ y_log (on x_load) ∧ at_rest true (on x_load)) ∧
  ((0, EvEnd (P:=SH) (1%nat, 0%N)) ∈ y_log (on x_end)).
Proof.
  split; [|split; [is_at 12|split; [|is_at 5]]].
  - split; [apply resting; computed|]. split.
    + split; [is_at 7|]. split; [apply not_noted; computed|apply not_returned; computed].
    + eexists _, _, _; (split; [vm_compute; reflexivity|]); split; vm_compute; reflexivity.
  - split; [is_at 17|]. split; [is_at 9|]. apply resting; computed.
Qed.

(* ---- C34: the value a waiter gets, the guard a waiter gets ---- *)
(* a waiter that returns v: v is what the one who was in charge of that load passed to insert, the
   load is the one it found, and it is for the same key *)
Theorem C34_value_is_the_inserted_one : ∀ (P : Params), Lawful P → ptr_ids P = true → ∀ dbg budget ghosts cap e ls (y : sys P) b v l,
  execution dbg budget ghosts cap e ls y → (b, EvRet (RetVal v (Some l))) ∈ y_log y →
  (∃ a rs wl, (a, EvPut l v) ∈ y_log y ∧ trusted (y_log y) l a ∧ PutG a rs v wl ∈ ls) ∧
  (∀ a' v', (a', EvPut l v') ∈ y_log y → v' = v) ∧
  (∃ ag k a k', y_agents y !! b = Some ag ∧ loads_key (a_call ag) = Some k ∧ (b, EvSec l.1 (OJoin k) (SWait l.2)) ∈ y_log y ∧
     (a, EvSec l.1 (OJoin k') (SNew l.2)) ∈ y_log y ∧ keqb P k k' = true).
Proof.
  intros P LW PI dbg budget ghosts cap e ls y b v l H Hr. destruct (ginv LW PI _ _ _ H) as [HR HG].
  destruct (elem_of_list_split _ _ Hr) as (g1 & g2 & E). destruct (gi_proper _ HG _ _ _ _ E) as (_ & _ & _ & [a Ha] & _).
  assert ((a, EvPut l v) ∈ y_log y) as Hput by (rewrite E; apply elem_of_app; by left). split; [|split].
  - destruct (as_put _ _ (asks_all LW PI _ _ _ H) _ _ _ Hput) as (rs & wl & Hl). exists a, rs, wl. split_and!; try done.
    apply (settled_trusted _ _ _ HG). left; eauto.
  - intros a' v' Hp'. by destruct (put_one _ _ _ _ _ _ HG Hp' Hput).
  - destruct (val_joined _ _ _ _ HR Hr) as (ag & k & Hag & Hk & Hj). destruct (join_key _ _ _ _ _ HR Hj) as (a1 & k' & H1 & H2).
    exists ag, k, a1, k'. done.
Qed.
Print Assumptions C34_value_is_the_inserted_one.
(* a waiter that gets the guard instead: exactly one party handed it over, and was in charge *)
Theorem C34_guard_was_handed_over : ∀ (P : Params), Lawful P → ptr_ids P = true → ∀ dbg budget ghosts cap e ls (y : sys P) b l,
  execution dbg budget ghosts cap e ls y → (b, EvWait l) ∈ y_log y → (b, EvGuard l) ∈ y_log y →
  ∃ a g1 g2, y_log y = g1 ++ (a, EvGive l b) :: g2 ∧ in_charge g1 l a ∧ waiting g1 l b ∧
    ∀ d, (d, EvGive l b) ∈ y_log y → d = a.
Proof.
  intros P LW PI dbg budget ghosts cap e ls y b l H Hw Hg. destruct (ginv LW PI _ _ _ H) as [HR HG].
  destruct (guard_given _ _ _ HR HG Hg Hw) as [a Ha]. apply elem_of_list_split in Ha as (g1 & g2 & E). exists a, g1, g2.
  destruct (C33_drop_gives_one P LW PI _ _ _ _ _ _ _ _ _ _ _ _ H E) as (H1 & H2 & _ & _ & _ & H3). done.
Qed.
Print Assumptions C34_guard_was_handed_over.
(* what a call that queued up can return: the value, nothing, or a guard it then used *)
Theorem C34_outcome : ∀ (P : Params), Lawful P → ptr_ids P = true → ∀ dbg budget ghosts cap e ls (y : sys P) b l r,
  execution dbg budget ghosts cap e ls y → (b, EvWait l) ∈ y_log y → (b, EvRet r) ∈ y_log y →
  (∃ v a, r = RetVal v (Some l) ∧ (a, EvPut l v) ∈ y_log y ∧ noted (y_log y) b) ∨
  ((r = RetTimeout ∨ r = RetCancel) ∧ ∀ l, ¬ trusted (y_log y) l b) ∨ settled (y_log y) l b.
Proof. intros P LW PI dbg budget ghosts cap e ls y b l r H. destruct (ginv LW PI _ _ _ H) as [HR HG]. exact (waiter_outcome _ _ _ _ HR HG). Qed.
Print Assumptions C34_outcome.
Example C34_example :
  ((1, EvRet (P:=SH) (RetVal (P:=SH) 6%N (Some (1%nat, 0%N)))) ∈ y_log (on x_give)) ∧
  (2, EvWait (P:=SH) (1%nat, 0%N)) ∈ y_log (on x_give) ∧ (2, EvGuard (P:=SH) (1%nat, 0%N)) ∈ y_log (on x_give) ∧
  PutG (P:=SH) 2 0%N 6%N false ∈ on_ls x_give.
Proof. split; [is_at 20|]. split; [is_at 11|]. split; [is_at 15|]. is_at 38. Qed.

(* ---- C35: timeouts and cancelled futures ---- *)
(* a call that timed out was never notified nor given the guard, and is in no queue any more *)
Theorem C35_timeout_clean : ∀ (P : Params), Lawful P → ptr_ids P = true → ∀ dbg budget ghosts cap e ls (y : sys P) b,
  execution dbg budget ghosts cap e ls y → (b, EvRet RetTimeout) ∈ y_log y →
  ¬ noted (y_log y) b ∧ (∀ l, ¬ trusted (y_log y) l b) ∧ ∀ l t, (b, t) ∉ waiting_on y l.
Proof.
  intros P LW PI dbg budget ghosts cap e ls y b H Hr. destruct (ginv LW PI _ _ _ H) as [HR HG]. split; [by eapply timeout_unnoted|]. split.
  - intros l Ht. destruct (elem_of_list_split _ _ Hr) as (g1 & g2 & E). destruct (gi_proper _ HG _ _ _ _ E) as (_ & _ & _ & _ & Hn).
    apply (Hn l). by eapply trusted_at_return.
  - intros l t. apply (done_left _ _ _ _ HR). by exists RetTimeout.
Qed.
Print Assumptions C35_timeout_clean.
(* a future that was cancelled is in no queue any more, and if it had been given the guard it passed
   it on, or gave the load up because nobody waited *)
Theorem C35_cancel_passes_on : ∀ (P : Params), Lawful P → ptr_ids P = true → ∀ dbg budget ghosts cap e ls (y : sys P) b,
  execution dbg budget ghosts cap e ls y → returned (y_log y) b →
  (∀ l t, (b, t) ∉ waiting_on y l) ∧ (∀ l, trusted (y_log y) l b → settled (y_log y) l b) ∧
  ((b, EvRet RetCancel) ∈ y_log y → ∀ l, ¬ trusted (y_log y) l b).
Proof.
  intros P LW PI dbg budget ghosts cap e ls y b H Hret. destruct (ginv LW PI _ _ _ H) as [HR HG]. split; [|split].
  - intros l t. by apply (done_left _ _ _ _ HR).
  - intros l Ht. destruct (returned_done _ _ HR Hret) as (ag & r & _ & _ & Hr & _).
    destruct (settled_or_not (y_log y) l b) as [?|Hn]; [done|]. exfalso. eapply (charge_not_returned y l b HR); [by split|done].
  - intros Hr l Ht. destruct (elem_of_list_split _ _ Hr) as (g1 & g2 & E). destruct (gi_proper _ HG _ _ _ _ E) as (_ & _ & _ & Hn).
    apply (Hn l). by eapply trusted_at_return.
Qed.
Print Assumptions C35_cancel_passes_on.
(* leaving the queue, after a timeout or because the future is dropped, never panics; nothing ever
   panics except for want of slots, or because the sum of the weights overflows *)
Theorem C35_no_panic : ∀ (P : Params), Lawful P → ptr_ids P = true → ∀ dbg budget ghosts cap e ls (y : sys P),
  execution dbg budget ghosts cap e ls y →
  (∀ lb f, cstep dbg y lb = Some (Fail f) → f = SlabFull ∨ f = WeightOvf) ∧
  (∀ a ag j p f, y_agents y !! a = Some ag → a_pc ag = JTimeIn j p ∨ a_pc ag = FDropIn j p → go dbg y a ≠ Some (Fail f)).
Proof.
  intros P LW PI dbg budget ghosts cap e ls y H. destruct (ginv LW PI _ _ _ H) as [HR HG]. split.
  - intros lb f Hc. destruct (cstep_fails LW PI _ _ _ _ HR Hc) as (a & ag & j & s & z & _ & _ & _ & _ & Hx). destruct f; simpl in Hx; auto; done.
  - intros a ag j p f Ha Hp Hg. destruct (cstep_fails LW PI dbg y (Go a) f HR Hg) as (b & ag' & i & s & z & [= <-] & Ha' & Hz & _).
    rewrite Ha in Ha'. injection Ha' as <-. destruct Hp as [Hp|Hp]; by rewrite Hp in Hz.
Qed.
Print Assumptions C35_no_panic.
Example C35_example :
  (2, EvRet (P:=SH) RetTimeout) ∈ y_log (on x_load) ∧
  (2, EvRet (P:=SH) RetDrop) ∈ y_log (on x_pass) ∧ (0, EvGive (P:=SH) (1%nat, 0%N) 2) ∈ y_log (on x_pass) ∧
  (2, EvGive (P:=SH) (1%nat, 0%N) 1) ∈ y_log (on x_pass) ∧
  (∃ ag, y_agents (on x_pass) !! 2 = Some ag ∧ a_call ag = KFut (P:=SH) 5%N).
Proof.
  split; [is_at 16|]. split; [is_at 17|]. split; [is_at 12|]. split; [is_at 15|].
  eexists. split; [vm_compute; reflexivity|]. vm_compute; reflexivity.
Qed.

(* ---- C36: nobody meets a load that was given up ---- *)
(* nothing happens to a load after it was given up: nobody finds it, queues up for it, provides its
   value, is its guard, or returns its value *)
Theorem C36_over_is_over : ∀ (P : Params), Lawful P → ptr_ids P = true → ∀ dbg budget ghosts cap e ls (y : sys P) g1 a l g2 b ev,
  execution dbg budget ghosts cap e ls y → y_log y = g1 ++ (a, EvEnd l) :: g2 → (b, ev) ∈ g2 → about ev ≠ Some l.
Proof.
  intros P LW PI dbg budget ghosts cap e ls y g1 a l g2 b ev H E. destruct (ginv LW PI _ _ _ H) as [HR HG].
  exact (plog_over _ _ _ _ _ _ _ (gi_proper _ HG) E).
Qed.
Print Assumptions C36_over_is_over.
(* a load that was given up is not found by asking for any key *)
Theorem C36_not_reachable : ∀ (P : Params), Lawful P → ptr_ids P = true → ∀ dbg budget ghosts cap e ls (y : sys P) l,
  execution dbg budget ghosts cap e ls y → would_join y l → at_load y l ≠ Terminated ∧ ¬ ended (y_log y) l.
Proof.
  intros P LW PI dbg budget ghosts cap e ls y l H Hj. destruct (ginv LW PI _ _ _ H) as [HR HG].
  pose proof (joinable LW PI _ _ HR Hj) as Hn. split; [done|]. intros He. by apply Hn, (gi_end _ HG).
Qed.
Print Assumptions C36_not_reachable.
(* whoever looks at the state of a load, under its lock, does not find it given up: the branches that
   the code declares unreachable are *)
Theorem C36_never_seen : ∀ (P : Params), Lawful P → ptr_ids P = true → ∀ dbg budget ghosts cap e ls (y : sys P) a ag j p,
  execution dbg budget ghosts cap e ls y → y_agents y !! a = Some ag →
  (∃ md, a_pc ag = JPushIn j p md) ∨ a_pc ag = JReIn j p ∨ a_pc ag = FDropIn j p ∨ (∃ sm, a_pc ag = SIn j p sm) ∨
    a_pc ag = DIn j p ∨ (∃ rs v wl, a_pc ag = IIn j p rs v wl) →
  at_load y (pl j p) ≠ Terminated ∧ ¬ ended (y_log y) (pl j p) ∧ go dbg y a ≠ Some (Fail Panic).
Proof.
  intros P LW PI dbg budget ghosts cap e ls y a ag j p H Ha Hp. destruct (ginv LW PI _ _ _ H) as [HR HG].
  pose proof (reader_live _ _ _ _ _ HR Ha Hp) as Hn. split; [done|]. split; [intros He; by apply Hn, (gi_end _ HG)|].
  intros Hg. destruct (C35_no_panic P LW PI _ _ _ _ _ _ _ H) as [Hf _]. by destruct (Hf (Go a) Panic Hg).
Qed.
Print Assumptions C36_never_seen.
Example C36_example : ended (y_log (on x_end)) (1%nat, 0%N) ∧ at_load (on x_end) (1%nat, 0%N) = Terminated ∧
  would_join (on x_end) (1%nat, 1%N) ∧
  (∃ ag p md, y_agents (on (take 4 x_give ++ [load (P:=SH) 5%N None] ++ repeat (L (Go 2)) 6)) !! 2 = Some ag ∧ a_pc ag = JPushIn 1 p md).
Proof.
  split; [exists 0; is_at 5|]. split; [vm_compute; reflexivity|]. split.
  - eexists _, (5%N : K SH), _, _, _. split; [vm_compute; reflexivity|]. split; [vm_compute; reflexivity|vm_compute; reflexivity].
  - eexists _, _, _. split; [vm_compute; reflexivity|]. vm_compute; reflexivity.
Qed.
