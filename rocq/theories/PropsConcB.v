(* Locks, guard inserts, linearizability, hotness counters and timeouts of the sync cache used by many
   threads and futures: C37 to C41. Each theorem is about every execution of Conc.v. *)
From stdpp Require Import prelude list.
From Verif Require Import ConcTime DemoConc.

(* ---- C37: no deadlock ---- *)
(* an agent that waits for a lock holds only locks that come earlier in the order: shard, state of a
   load, waiter of a task *)
Theorem C37_lock_order : ∀ (P : Params), Lawful P → ptr_ids P = true → ∀ dbg budget ghosts cap e ls (y : sys P) a ag w z,
  execution dbg budget ghosts cap e ls y → y_agents y !! a = Some ag →
  wants a (a_pc ag) = Some w → z ∈ holds a (a_pc ag) → lock_rank z.1 < lock_rank w.1.
Proof. intros P LW PI dbg budget ghosts cap e ls y a ag w z _ _. apply lock_order. Qed.
Print Assumptions C37_lock_order.
(* the locks exclude each other *)
Theorem C37_exclusive : ∀ (P : Params), Lawful P → ptr_ids P = true → ∀ dbg budget ghosts cap e ls (y : sys P) a b ag bg l m m',
  execution dbg budget ghosts cap e ls y → a ≠ b → y_agents y !! a = Some ag → y_agents y !! b = Some bg →
  (l, m) ∈ holds a (a_pc ag) → (l, m') ∈ holds b (a_pc bg) → m = MR ∧ m' = MR.
Proof.
  intros P LW PI dbg budget ghosts cap e ls y a b ag bg l m m' H Hne Ha Hb Hl Hl'. destruct (ginv LW PI _ _ _ H) as [HR _].
  pose proof (ci_lock _ _ _ _ _ (rc_c _ HR) a b ag bg Hne Ha Hb _ _ Hl Hl') as Hc. unfold compat in Hc. simpl in Hc. rewrite decide_True in Hc by done.
  by destruct m, m'.
Qed.
Print Assumptions C37_exclusive.
(* when somebody holds a lock, or waits for one, somebody can go on *)
Theorem C37_some_party_moves : ∀ (P : Params), Lawful P → ptr_ids P = true → ∀ dbg budget ghosts cap e ls (y : sys P) a ag,
  execution dbg budget ghosts cap e ls y → y_agents y !! a = Some ag →
  holds a (a_pc ag) ≠ [] ∨ wants a (a_pc ag) ≠ None → ∃ b r, go dbg y b = Some r.
Proof.
  intros P LW PI dbg budget ghosts cap e ls y a ag _ Ha Hx.
  assert (∀ b, go dbg y b ≠ None → ∃ r, go dbg y b = Some r) as Hs by (intros b Hb; destruct (go dbg y b); eauto; done).
  destruct (wants a (a_pc ag)) as [w|] eqn:Hw.
  - destruct (free y w) eqn:Hf; [exists a; eexists; unfold go; by rewrite Ha, Hw, Hf|].
    destruct (blocked_by dbg y 3 a ag w Ha Hw ltac:(lia) Hf) as (b & bg & _ & _ & Hb). exists b. by apply Hs.
  - destruct Hx as [Hx|]; [|done]. exists a. apply Hs. unfold go. rewrite Ha, Hw. destruct (holds a (a_pc ag)) as [|z zs] eqn:Eh; [done|].
    eapply (holder_acts _ _ _ _ z); [rewrite Eh; left|done].
Qed.
Print Assumptions C37_some_party_moves.
(* and this cannot go on for ever: after finitely many steps nobody holds or waits for a lock *)
Theorem C37_locks_are_released : ∀ (P : Params), Lawful P → ptr_ids P = true → ∀ dbg budget ghosts cap e ls (y : sys P),
  execution dbg budget ghosts cap e ls y →
  (∃ n, ∀ ls' y', only_go ls' → steps dbg y ls' y' → length ls' ≤ n) ∧
  (at_rest dbg y → ∀ a ag, y_agents y !! a = Some ag → holds a (a_pc ag) = [] ∧ wants a (a_pc ag) = None).
Proof.
  intros P LW PI dbg budget ghosts cap e ls y H. destruct (ginv LW PI _ _ _ H) as [HR _]. split.
  - exists (ConcLive.total y). intros ls' y' Ho Hs. destruct (steps_cons_go LW PI _ _ _ _ HR Ho Hs) as [_ Hle]. lia.
  - intros Hr a ag Ha.
    assert (¬ (holds a (a_pc ag) ≠ [] ∨ wants a (a_pc ag) ≠ None)) as Hn.
    { intros Hx. destruct (C37_some_party_moves P LW PI _ _ _ _ _ _ _ _ _ H Ha Hx) as (b & r & Hb). by rewrite (Hr b) in Hb. }
    destruct (holds a (a_pc ag)), (wants a (a_pc ag)); try done; exfalso; apply Hn; auto; by left.
Qed.
Print Assumptions C37_locks_are_released.
Example C37_example :
  (* agent 2 holds the shard and waits for the state of the load; agent 0 provides the value and holds the state *)
  let y := on (take 4 x_give ++ [load (P:=SH) 5%N None; Run 1] ++ repeat (L (Go 2)) 5 ++ [L (PutG (P:=SH) 0 0%N 6%N false); L (Go 0)]) in
  ∃ ag0 ag2, y_agents y !! 0 = Some ag0 ∧ y_agents y !! 2 = Some ag2 ∧
    holds 0 (a_pc ag0) = [(LState (1%nat, 0%N), MW)] ∧
    holds 2 (a_pc ag2) = [(LShard 1, MW)] ∧ wants 2 (a_pc ag2) = Some (LState (1%nat, 0%N), MW) ∧ go true y 2 = None.
Proof.
  eexists _, _. split; [vm_compute; reflexivity|]. split; [vm_compute; reflexivity|]. split_and!; vm_compute; reflexivity.
Qed.

(* ---- C38: what insert on a guard does ---- *)
(* The load was started by somebody who asked for a key k. The value is refused, and nothing changes,
   if since then a call removed or overwrote k or cleared the cache; otherwise k is loaded with it. *)
Theorem C38_insert_unless_cancelled : ∀ (P : Params), Lawful P → ptr_ids P = true → ∀ dbg budget ghosts cap e ls (y : sys P) g1 a j rs id v wl r g2,
  execution dbg budget ghosts cap e ls y → y_log y = g1 ++ (a, EvSec j (OFill rs id v wl) r) :: g2 →
  ∃ ga b k gb d d', g1 = ga ++ (b, EvSec j (OJoin k) (SNew id)) :: gb ∧
    legal cap budget (sections j g1) d ∧ sdoes cap budget d (OFill rs id v wl) r d' ∧
    ((r = SStale v ∧ cancelled budget gb j k ∧ ss_items d' ≡ₚ ss_items d) ∨
     (∃ (es : list (event P)) rs', r = SO (reply rs es rs' wl RGuard false) ∧ ¬ cancelled budget gb j k ∧
        loads cap budget rs (ss_items d) k v es rs' (ss_items d'))).
Proof.
  intros P LW PI dbg budget ghosts cap e ls y g1 a j rs id v wl r g2 H E. destruct (ginv LW PI _ _ _ H) as [HR HG].
  destruct (fill_started _ _ _ _ _ _ _ _ _ _ HG E) as (ga & b & k & gb & Eg).
  rewrite Eg in E. rewrite <-app_assoc in E. simpl in E.
  destruct (fill_truth _ _ _ _ _ _ _ _ _ _ _ _ _ HR HG E) as (d & d' & HL & Hd & Hr). exists ga, b, k, gb, d, d'. rewrite Eg. split; [done|]. split; [done|].
  split; [done|]. destruct Hr as [[-> Hc]|Hr]; [left|by right]. split; [done|]. split; [done|]. destruct d as [c pd n], d' as [c' pd' n'].
  simpl in Hd. by destruct Hd as (_ & _ & ? & _).
Qed.
Print Assumptions C38_insert_unless_cancelled.
(* insert on the guard of l returns Err(v) exactly if its section refused the value *)
Theorem C38_what_insert_returns : ∀ (P : Params), Lawful P → ptr_ids P = true → ∀ dbg budget ghosts cap e ls (y : sys P) a l v r,
  execution dbg budget ghosts cap e ls y → (a, EvPut l v) ∈ y_log y → (a, EvRet r) ∈ y_log y →
  ∃ rs wl, PutG a rs v wl ∈ ls ∧
    ((r = RetStale v ∧ (a, EvSec l.1 (OFill rs l.2 v wl) (SStale v)) ∈ y_log y) ∨
     (∃ o, r = RetOut o ∧ (a, EvSec l.1 (OFill rs l.2 v wl) (SO o)) ∈ y_log y)).
Proof.
  intros P LW PI dbg budget ghosts cap e ls y a l v r H Hp Hr. destruct (ginv LW PI _ _ _ H) as [HR HG].
  destruct (put_returns _ _ _ _ _ HR Hp Hr) as (rs & wl & Hx). exists rs, wl. split; [|done].
  destruct Hx as [[_ Hx]|(o & _ & Hx)]; exact (as_fill _ _ (asks_all LW PI _ _ _ H) _ _ _ _ _ _ _ Hx).
Qed.
Print Assumptions C38_what_insert_returns.
(* the step in which it returns Err(v) does not touch the cache at all: no shard, slab slot or counter *)
Theorem C38_stale_changes_nothing : ∀ (P : Params), Lawful P → ptr_ids P = true → ∀ dbg budget ghosts cap e ls (y : sys P) lb y' a v,
  execution dbg budget ghosts cap e ls y → cstep dbg y lb = Some (Ok y') →
  (a, EvRet (RetStale v)) ∈ y_log y' → (a, EvRet (RetStale v)) ∉ y_log y → y_cache y' = y_cache y.
Proof.
  intros P LW PI dbg budget ghosts cap e ls y lb y' a v H. destruct (ginv LW PI _ _ _ H) as [HR _]. exact (stale_same LW PI _ _ _ _ _ _ HR).
Qed.
Print Assumptions C38_stale_changes_nothing.
(* the guard is used up *)
Theorem C38_insert_once : ∀ (P : Params), Lawful P → ptr_ids P = true → ∀ dbg budget ghosts cap e ls (y : sys P) a b l v v',
  execution dbg budget ghosts cap e ls y → (a, EvPut l v) ∈ y_log y → (b, EvPut l v') ∈ y_log y → a = b ∧ v = v'.
Proof. intros P LW PI dbg budget ghosts cap e ls y a b l v v' H. destruct (ginv LW PI _ _ _ H) as [_ HG]. exact (put_one _ _ _ _ _ _ HG). Qed.
Print Assumptions C38_insert_once.
Example C38_example :
  (0, EvSec 1 (OFill (P:=SH) 0%N 0%N 6%N false) (SStale (P:=SH) 6%N)) ∈ y_log (on x_stale) ∧
  (0, EvRet (P:=SH) (RetStale (P:=SH) 6%N)) ∈ y_log (on x_stale) ∧
  (∃ o, (1, EvSec 1 (OCmd (CRemove (P:=SH) 5%N)) (SO (P:=SH) o)) ∈ y_log (on x_stale)) ∧
  (∃ o, (2, EvSec 1 (OFill (P:=SH) 0%N 1%N 4%N false) (SO (P:=SH) o)) ∈ y_log (on x_stale)) ∧
  (3, EvRet (P:=SH) (RetVal (P:=SH) 4%N None)) ∈ y_log (on x_stale).
Proof.
  split; [is_at 12|]. split; [is_at 13|]. split; [eexists; apply (elem_of_list_lookup_2 _ 5); vm_compute; reflexivity|]. split; [|is_at 19].
  eexists. apply (elem_of_list_lookup_2 _ 15). vm_compute. reflexivity.
Qed.

(* ---- C39: linearizable shards ---- *)
(* What a step does to a shard: nothing that can be seen, or the one section it logs, as specified. *)
Theorem C39_steps : ∀ (P : Params), Lawful P → ptr_ids P = true → ∀ dbg budget ghosts cap e ls (y : sys P) lb y',
  execution dbg budget ghosts cap e ls y → cstep dbg y lb = Some (Ok y') →
  ∃ es, y_log y' = y_log y ++ es ∧ ∀ j s, sc_shards (y_cache y) !! j = Some s → ∃ s', sc_shards (y_cache y') !! j = Some s' ∧
    ((sections j es = [] ∧ sh_iter s' = sh_iter s) ∨
     (∃ o r pd n pd' n', sections j es = [(o, r)] ∧ sdoes cap budget (SSt (sh_iter s) pd n) o r (SSt (sh_iter s') pd' n'))).
Proof.
  intros P LW PI dbg budget ghosts cap e ls y lb y' H Hc. destruct (ginv LW PI _ _ _ H) as [HR _].
  destruct (cstep_exact LW PI _ _ _ _ (rc_c _ HR) Hc) as (es & El & Hx). exists es. split; [done|]. intros j s Hs.
  destruct (Hx j s Hs) as (s' & Hs' & [[H1 (H2 & _)]|(o & r & H1 & H2)]); exists s'; (split; [done|]).
  - left. done.
  - right. eexists o, r, _, _, _, _. split; [done|exact H2].
Qed.
Print Assumptions C39_steps.
(* At any time: the sections that took effect on a shard, in the order they did, are a run of the
   sequential specification, and end in what is cached now. *)
Theorem C39_linearizable : ∀ (P : Params), Lawful P → ptr_ids P = true → ∀ dbg budget ghosts cap e ls (y : sys P) j s,
  execution dbg budget ghosts cap e ls y → sc_shards (y_cache y) !! j = Some s →
  ∃ d, legal cap budget (sections j (y_log y)) d ∧ ss_items d = sh_iter s.
Proof.
  intros P LW PI dbg budget ghosts cap e ls y j s H Hs. destruct (ginv LW PI _ _ _ H) as [HR _].
  destruct (ci_legal _ _ _ _ _ (rc_c _ HR) j s Hs) as (d & HL & E & _). by exists d.
Qed.
Print Assumptions C39_linearizable.
(* A call that returned did what its kind of call does, in order: its sections lie between its start
   and its end, on the shard of its key, and it returned what they returned. *)
Theorem C39_calls : ∀ (P : Params), Lawful P → ptr_ids P = true → ∀ dbg budget ghosts cap e ls (y : sys P) a r,
  execution dbg budget ghosts cap e ls y → (a, EvRet r) ∈ y_log y →
  ∃ ag h, y_agents y !! a = Some ag ∧ hist (y_log y) a = h ++ [EvRet r] ∧
    life (2 ^ e - 1)%N (N.to_nat (2 ^ e)) (a_call ag) h r.
Proof.
  intros P LW PI dbg budget ghosts cap e ls y a r H Hr. destruct (ginv LW PI _ _ _ H) as [HR _].
  destruct (returned_done _ _ HR (ex_intro _ r Hr)) as (ag & r' & Ha & _ & Hr' & h & HL & Hh).
  assert (r' = r) as -> by (by eapply (returned_unique _ _ _ _ HR)). exists ag, h. split; [done|]. split; [done|].
  by rewrite (ci_len _ _ _ _ _ (rc_c _ HR)), (ci_mask _ _ _ _ _ (rc_c _ HR)) in HL.
Qed.
Print Assumptions C39_calls.
Theorem C39_invariants : ∀ (P : Params), Lawful P → ptr_ids P = true → ∀ dbg budget ghosts cap e ls (y : sys P) j s,
  execution dbg budget ghosts cap e ls y → sc_shards (y_cache y) !! j = Some s → sound budget ghosts cap s.
Proof. intros P LW PI dbg budget ghosts cap e ls y j s H Hs. destruct (ginv LW PI _ _ _ H) as [HR _]. exact (reach_sound LW _ _ _ HR Hs). Qed.
Print Assumptions C39_invariants.
(* when nothing is pinned, no shard ever exceeds its capacity *)
Theorem C39_weight_bound : ∀ (P : Params), Lawful P → ptr_ids P = true → ∀ dbg budget ghosts cap e ls (y : sys P) j s,
  execution dbg budget ghosts cap e ls y → sc_shards (y_cache y) !! j = Some s →
  (∀ k v, pinned P k v = false) → (budget ≤ cap)%N → (cap < two64)%N → ∃ w, sh_weight s = Ok w ∧ (w ≤ cap)%N.
Proof.
  intros P LW PI dbg budget ghosts cap e ls y j s H Hs Hp Hb Hc. pose proof (C39_invariants P LW PI _ _ _ _ _ _ _ _ _ H Hs) as HS.
  pose proof (so_bound _ _ _ _ HS Hb) as Hu. rewrite (uwsum_none _ Hp) in Hu. exists (wsum (sh_iter s)). split; [|done].
  rewrite (so_weight _ _ _ _ HS). destruct (N.ltb_spec (wsum (sh_iter s)) two64); [done|lia].
Qed.
Print Assumptions C39_weight_bound.
(* a key is only ever in its shard *)
Theorem C39_key_in_one_shard : ∀ (P : Params), Lawful P → ptr_ids P = true → ∀ dbg budget ghosts cap e ls (y : sys P) j s k v,
  execution dbg budget ghosts cap e ls y → sc_shards (y_cache y) !! j = Some s → (k, v) ∈ sh_iter s →
  j = shard_idx (2 ^ e - 1)%N k ∧
  ∀ j' s' k' v', sc_shards (y_cache y) !! j' = Some s' → (k', v') ∈ sh_iter s' → keqb P k k' = true → j' = j ∧ v' = v ∧ k' = k.
Proof.
  intros P LW PI dbg budget ghosts cap e ls y j s k v H Hs Hin. destruct (ginv LW PI _ _ _ H) as [HR _].
  pose proof (conc_located LW _ _ _ _ _ HR Hs Hin) as Hj. pose proof (ci_mask _ _ _ _ _ (rc_c _ HR)) as Hm. split; [by rewrite <-Hm|].
  intros j' s' k' v' Hs' Hin' Hk. assert (j' = j) as ->.
  { rewrite (conc_located LW _ _ _ _ _ HR Hs' Hin'), Hj. symmetry. by apply (idx_keqb LW). }
  split; [done|]. rewrite Hs in Hs'. injection Hs' as <-. pose proof (so_unique _ _ _ _ (reach_sound LW _ _ _ HR Hs)) as Hu.
  apply elem_of_list_lookup in Hin as [i Hi]. apply elem_of_list_lookup in Hin' as [i' Hi'].
  assert (i = i') as <- by (by eapply Hu). rewrite Hi in Hi'. by injection Hi'.
Qed.
Print Assumptions C39_key_in_one_shard.
(* a value that is read was written to its key, by insert, replace or a guard, and not erased or
   overwritten since; so were all cached values *)
Theorem C39_reads_see_last_write : ∀ (P : Params), Lawful P → ptr_ids P = true → ∀ dbg budget ghosts cap e ls (y : sys P) g1 a j k v g2,
  execution dbg budget ghosts cap e ls y →
  y_log y = g1 ++ (a, EvSec j (OCmd (CGet k)) (SO (plain (RVal (Some v))))) :: g2 ∨ y_log y = g1 ++ (a, EvSec j (OJoin k) (SHit v)) :: g2 →
  came_from (story (sections j g1)) k v.
Proof. intros P LW PI dbg budget ghosts cap e ls y g1 a j k v g2 H. destruct (ginv LW PI _ _ _ H) as [HR _]. exact (read_source LW _ _ _ _ _ _ _ HR). Qed.
Print Assumptions C39_reads_see_last_write.
Theorem C39_cached_was_written : ∀ (P : Params), Lawful P → ptr_ids P = true → ∀ dbg budget ghosts cap e ls (y : sys P) j s k v,
  execution dbg budget ghosts cap e ls y → sc_shards (y_cache y) !! j = Some s → (k, v) ∈ sh_iter s →
  came_from (story (sections j (y_log y))) k v.
Proof. intros P LW PI dbg budget ghosts cap e ls y j s k v H Hs. destruct (ginv LW PI _ _ _ H) as [HR _]. exact (conc_sourced LW _ _ _ HR Hs k v). Qed.
Print Assumptions C39_cached_was_written.
(* no step panics, except for want of slots or because the weights overflow; no index is out of
   bounds, no loop runs out of fuel *)
Theorem C39_no_panic : ∀ (P : Params), Lawful P → ptr_ids P = true → ∀ dbg budget ghosts cap e ls (y : sys P) lb f,
  execution dbg budget ghosts cap e ls y → cstep dbg y lb = Some (Fail f) → runs_out budget cap y lb f.
Proof. intros P LW PI dbg budget ghosts cap e ls y lb f H. destruct (ginv LW PI _ _ _ H) as [HR _]. exact (fails_spelled LW PI _ _ _ _ HR). Qed.
Print Assumptions C39_no_panic.
(* gets that run at the same time under the read lock change the counter of an item, or the hits and
   misses, and nothing else *)
Theorem C39_gets_only_touch_counters : ∀ (P : Params), Lawful P → ptr_ids P = true → ∀ dbg budget ghosts cap e ls (y : sys P) a ag y',
  execution dbg budget ghosts cap e ls y → y_agents y !! a = Some ag →
  (∃ j k c, a_pc ag = GIn j k c) ∨ (∃ j i v c, a_pc ag = GBump j i v c) ∨ (∃ j v c, a_pc ag = GHit j v c) ∨ (∃ j k c, a_pc ag = GMiss j k c) →
  cstep dbg y (Go a) = Some (Ok y') → same_but_hot (y_cache y) (y_cache y').
Proof. intros P LW PI dbg budget ghosts cap e ls y a ag y' H. destruct (ginv LW PI _ _ _ H) as [HR _]. exact (get_hot _ _ _ _ _ HR). Qed.
Print Assumptions C39_gets_only_touch_counters.
Example C39_example :
  (∃ s, sc_shards (y_cache (on x_stale)) !! 1 = Some s ∧ sh_iter s = [(5%N, 4%N)]) ∧
  story (sections 1 (y_log (on x_stale))) = [Erased (P:=SH) 5%N; Wrote (P:=SH) 5%N 4%N] ∧
  (∃ g1 g2, y_log (on x_stale) = g1 ++ (3, EvSec 1 (OCmd (CGet (P:=SH) 5%N)) (SO (plain (P:=SH) (RVal (P:=SH) (Some 4%N))))) :: g2) ∧
  (∃ ag, y_agents (on (take 12 x_race)) !! 3 = Some ag ∧ ∃ j i v c, a_pc ag = GBump j i v c).
Proof.
  split; [eexists; split; vm_compute; reflexivity|]. split; [vm_compute; reflexivity|]. split.
  - apply elem_of_list_split. is_at 18.
  - eexists. split; [vm_compute; reflexivity|]. do 4 eexists. vm_compute; reflexivity.
Qed.

(* ---- C40: the hotness counters do not matter ---- *)
(* Executions in which, on top of everything else, the counters change by themselves, at any time and
   to any value: as after racing increments, or after they wrapped around. All of the above holds. *)
Theorem C40_wild_counters_invariants : ∀ (P : Params), Lawful P → ptr_ids P = true → ∀ dbg budget ghosts cap e (y : sys P) j s,
  wild dbg (sys_new budget ghosts cap e) y → sc_shards (y_cache y) !! j = Some s →
  sound budget ghosts cap s ∧
  (∃ d, legal cap budget (sections j (y_log y)) d ∧ ss_items d = sh_iter s) ∧
  (∀ k v, (k, v) ∈ sh_iter s → j = shard_idx (2 ^ e - 1)%N k ∧ came_from (story (sections j (y_log y))) k v) ∧
  proper_log (y_log y).
Proof.
  intros P LW PI dbg budget ghosts cap e y j s H Hs. destruct (wild_inv LW PI _ _ H) as [HR HG]. split_and!.
  - exact (reach_sound LW _ _ _ HR Hs).
  - destruct (ci_legal _ _ _ _ _ (rc_c _ HR) j s Hs) as (d & HL & E & _). by exists d.
  - intros k v Hin. split; [rewrite <-(ci_mask _ _ _ _ _ (rc_c _ HR)); exact (conc_located LW _ _ _ _ _ HR Hs Hin)|exact (conc_sourced LW _ _ _ HR Hs k v Hin)].
  - apply HG.
Qed.
Print Assumptions C40_wild_counters_invariants.
Theorem C40_wild_counters_terminate : ∀ (P : Params), Lawful P → ptr_ids P = true → ∀ dbg budget ghosts cap e (y : sys P),
  wild dbg (sys_new budget ghosts cap e) y →
  (∀ lb f, cstep dbg y lb = Some (Fail f) → runs_out budget cap y lb f) ∧
  (∃ n, ∀ ls' y', only_go ls' → steps dbg y ls' y' → length ls' ≤ n).
Proof.
  intros P LW PI dbg budget ghosts cap e y H. destruct (wild_inv LW PI _ _ H) as [HR HG]. split.
  - intros lb f. exact (fails_spelled LW PI _ _ _ _ HR).
  - exists (ConcLive.total y). intros ls' y' Ho Hs. destruct (steps_cons_go LW PI _ _ _ _ HR Ho Hs) as [_ Hle]. lia.
Qed.
Print Assumptions C40_wild_counters_terminate.
(* a change of the counters is not visible *)
Theorem C40_counters_are_invisible : ∀ (P : Params), Lawful P → ptr_ids P = true → ∀ dbg budget ghosts cap e (y y' : sys P),
  wild dbg (sys_new budget ghosts cap e) y → scrambles y y' →
  y_log y' = y_log y ∧ sh_iter <$> sc_shards (y_cache y') = sh_iter <$> sc_shards (y_cache y) ∧
  sh_len <$> sc_shards (y_cache y') = sh_len <$> sc_shards (y_cache y) ∧
  sh_weight <$> sc_shards (y_cache y') = sh_weight <$> sc_shards (y_cache y).
Proof.
  intros P LW PI dbg budget ghosts cap e y y' H Hs. destruct (wild_inv LW PI _ _ H) as [HR HG].
  destruct (cinv_scramble LW _ _ (rc_c _ HR) Hs) as [HC _]. destruct Hs as (j & s & i & r & n & Hs & Hr & ->). split; [done|].
  destruct (ci_inv _ _ _ _ _ (rc_c _ HR) j s Hs) as [HI _]. pose proof (quiet_ref LW s i r n HI (entry_at_inv _ _ _ Hr)) as [Hq _].
  destruct (quiet_abs _ _ HI Hq) as (E & _). split_and!; simpl.
  - rewrite list_fmap_insert. apply list_insert_id. by rewrite list_lookup_fmap, Hs, E.
  - rewrite list_fmap_insert. apply list_insert_id. by rewrite list_lookup_fmap, Hs.
  - rewrite list_fmap_insert. apply list_insert_id. by rewrite list_lookup_fmap, Hs.
Qed.
Print Assumptions C40_counters_are_invisible.
(* every execution is one of those *)
Theorem C40_covers_executions : ∀ (P : Params) dbg budget ghosts cap e ls (y : sys P),
  execution dbg budget ghosts cap e ls y → wild dbg (sys_new budget ghosts cap e) y.
Proof.
  intros P dbg budget ghosts cap e ls y H. unfold execution in H. remember (sys_new budget ghosts cap e) as y0. clear Heqy0.
  induction H as [y|y ls y1 lb y2 H IH Hc]; [constructor|]. by eapply wd_step.
Qed.
Print Assumptions C40_covers_executions.
(* the counter does not stay within its intended maximum of 2: racing gets push it past that *)
Theorem C40_counter_within_maximum_refuted : ∃ ls (y : sys SH) s r i, execution true 10 3 14 1 ls y ∧
  sc_shards (y_cache y) !! 1 = Some s ∧ entry_at s i = Ok (Resident r) ∧ (MAX_F < r_ref r)%N.
Proof.
  exists (on_ls x_race), (on x_race). eexists _, _, 0. split; [apply on_execution|].
  split; [vm_compute; reflexivity|]. split; [vm_compute; reflexivity|]. vm_compute; reflexivity.
Qed.
Print Assumptions C40_counter_within_maximum_refuted.
Example C40_example : ∃ y s, wild true (sys_new (P:=SH) 10 3 14 1) y ∧ sc_shards (y_cache y) !! 1 = Some s ∧
  ∃ r, entry_at s 0 = Ok (Resident r) ∧ r_ref r = 65535%N.
Proof.
  pose proof (C40_covers_executions _ _ _ _ _ _ _ _ (on_execution x_race)) as H.
  eexists _, _. split; [eapply wd_scramble; [exact H|]|].
  - eexists 1, _, 0, _, 65535%N. split; [vm_compute; reflexivity|]. split; [vm_compute; reflexivity|]. reflexivity.
  - split; [vm_compute; reflexivity|]. eexists. split; vm_compute; reflexivity.
Qed.

(* ---- C41: timeouts ---- *)
(* the call returned Timeout: it was a call with a timeout, started at least that long ago *)
Theorem C41_never_early : ∀ (P : Params), Lawful P → ptr_ids P = true → ∀ dbg budget ghosts cap e ls (y : sys P) c y1 ls' y',
  execution dbg budget ghosts cap e ls y → cstep dbg y (Spawn c) = Some (Ok y1) → steps dbg y1 ls' y' →
  (length (y_agents y), EvRet RetTimeout) ∈ y_log y' → ∃ k to, c = KLoad k (Some to) ∧ (y_now y + to ≤ y_now y')%N.
Proof.
  intros P LW PI dbg budget ghosts cap e ls y c y1 ls' y' H. destruct (ginv LW PI _ _ _ H) as [HR _]. exact (timeout_late LW PI _ _ _ _ _ _ HR).
Qed.
Print Assumptions C41_never_early.
(* a thread with a timeout [to] that started to wait at [st] never parks up to [st + 2 * to] or later
   (when [to] is 0 it parks for no time at all) *)
Theorem C41_oversleeps_less_than_twice : ∀ (P : Params), Lawful P → ptr_ids P = true → ∀ dbg budget ghosts cap e ls (y : sys P) a ag j p st to d,
  execution dbg budget ghosts cap e ls y → y_agents y !! a = Some ag → a_pc ag = JPark j p (Some (st, to, d)) →
  (∃ k, a_call ag = KLoad k (Some to)) ∧ (a_born ag ≤ st)%N ∧ (st ≤ y_now y)%N ∧ (d = st ∨ (d < st + 2 * to)%N).
Proof.
  intros P LW PI dbg budget ghosts cap e ls y a ag j p st to d H Ha Hp. destruct (ginv LW PI _ _ _ H) as [HR _].
  pose proof (ti_pc _ (rc_t _ HR) _ _ Ha) as Ht. pose proof (hi_agent _ (rc_h _ HR) _ _ Ha) as Hh. rewrite Hp in Ht, Hh. simpl in Ht, Hh.
  destruct Hh as (k & Hc & _). destruct Ht as (H1 & H2 & H3 & H4). split; [by exists k|]. done.
Qed.
Print Assumptions C41_oversleeps_less_than_twice.
(* when it wakes up after the timeout, and was not notified, it goes to leave the queue *)
Theorem C41_expires : ∀ (P : Params), Lawful P → ptr_ids P = true → ∀ dbg budget ghosts cap e ls (y : sys P) a ag j p st to d,
  execution dbg budget ghosts cap e ls y → y_agents y !! a = Some ag → a_pc ag = JPark j p (Some (st, to, d)) →
  a_flag ag = false → (st + to ≤ y_now y)%N →
  ∃ y' ag', steps dbg y [Wake a; Go a; Go a] y' ∧ y_agents y' !! a = Some ag' ∧ a_pc ag' = JTime j p ∧ y_cache y' = y_cache y.
Proof.
  intros P LW PI dbg budget ghosts cap e ls y a ag j p st to d _ Ha Hp Hf Ht.
  set (y1 := goto y a (JChk j p (Some (st, to, d)))). set (y2 := goto y1 a (JElapsed j p st to)). set (y3 := goto y2 a (JTime j p)).
  assert (y_agents y1 !! a = Some (set_apc (JChk j p (Some (st, to, d))) ag)) as H1 by (unfold y1; rewrite lookup_goto, decide_True, Ha by done; done).
  assert (y_agents y2 !! a = Some (set_apc (JElapsed j p st to) ag)) as H2 by (unfold y2; rewrite lookup_goto, decide_True, H1 by done; done).
  assert (y_agents y3 !! a = Some (set_apc (JTime j p) ag)) as H3 by (unfold y3; rewrite lookup_goto, decide_True, H2 by done; done).
  exists y3. eexists. split; [|split; [exact H3|done]].
  change [Wake a; Go a; Go a] with ((([] ++ [Wake (P:=P) a]) ++ [Go a]) ++ [Go a]).
  eapply st_snoc; [eapply st_snoc; [eapply st_snoc; [constructor|]|]|].
  - simpl. rewrite Ha. simpl. by rewrite Hp.
  - cbn [cstep]. unfold go. fold y1. rewrite H1. cbn. by rewrite Hf.
  - cbn [cstep]. unfold go. fold y2. rewrite H2. cbn. replace (y_now y2) with (y_now y) by done. destruct (N.ltb_spec (y_now y - st) to); [lia|done].
Qed.
Print Assumptions C41_expires.
(* a call with a timeout that waits, when nothing moves: it is parked, for the timeout it was called
   with; and if it wakes up when the timeout is over, and was not notified, it returns Timeout *)
Theorem C41_times_out : ∀ (P : Params), Lawful P → ptr_ids P = true → ∀ dbg budget ghosts cap e ls (y : sys P) l a ag k to,
  execution dbg budget ghosts cap e ls y → at_rest dbg y → waiting (y_log y) l a → y_agents y !! a = Some ag → a_call ag = KLoad k (Some to) →
  ∃ j p st d, l = pl j p ∧ a_pc ag = JPark j p (Some (st, to, d)) ∧
  ∀ t, (st + to ≤ y_now y + t)%N → ∃ y', steps dbg y [Tick t; Wake a; Go a; Go a; Go a; Go a] y' ∧ (a, EvRet RetTimeout) ∈ y_log y'.
Proof.
  intros P LW PI dbg budget ghosts cap e ls y l a ag k to H. destruct (ginv LW PI _ _ _ H) as [HR _]. exact (times_out _ _ _ _ _ _ _ HR).
Qed.
Print Assumptions C41_times_out.
(* it can oversleep: parked until 18 with a timeout of 10, at time 9 after it started to wait *)
Theorem C41_wakes_in_time_refuted : ∃ ls (y : sys SH) a ag j p st to d, execution true 10 3 14 1 ls y ∧ y_agents y !! a = Some ag ∧
  a_pc ag = JPark j p (Some (st, to, d)) ∧ (st + to < d)%N.
Proof.
  exists (on_ls x_park), (on x_park), 1. do 6 eexists. split; [apply on_execution|]. split; [vm_compute; reflexivity|].
  split; [vm_compute; reflexivity|]. vm_compute; reflexivity.
Qed.
Print Assumptions C41_wakes_in_time_refuted.
Example C41_example : (2, EvRet (P:=SH) RetTimeout) ∈ y_log (on x_load) ∧
  (∃ y1, cstep true (on (take 3 x_load)) (Spawn (KLoad (P:=SH) 5%N (Some 3)%N)) = Some (Ok y1)) ∧ length (y_agents (on (take 3 x_load))) = 2 ∧
  at_rest true (on x_park) ∧ waiting (y_log (on x_park)) (1%nat, 0%N) 1 ∧ a_call <$> y_agents (on x_park) !! 1 = Some (KLoad (P:=SH) 5%N (Some 10)%N).
Proof.
  split; [is_at 16|]. split; [eexists; vm_compute; reflexivity|]. split; [vm_compute; reflexivity|]. split; [apply resting; computed|].
  split; [|vm_compute; reflexivity]. split; [is_at 7|]. split; [apply not_noted; computed|apply not_returned; computed].
Qed.
