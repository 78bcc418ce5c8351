(* What the statistics and the calls that look at the whole sync cache tell, while many threads and
   futures use it: C46. Each theorem is about every execution of Conc.v, and every way in which an
   observer (Watch.v) can be interleaved with it. *)
From stdpp Require Import prelude list.
From Verif Require Import DemoWatch.

(* At every moment the hit counter of a shard is the number of lookups in it that found the key or a
   load of it, up to those that have found it but did not count it yet; likewise the miss counter. *)
Theorem C46_counters : ∀ (P : Params), Lawful P → ptr_ids P = true → ∀ dbg budget ghosts cap e ls (y : sys P) j s,
  execution dbg budget ghosts cap e ls y → sc_shards (y_cache y) !! j = Some s →
  (sh_hits s + uncounted (to_count_hit j) y = n_hits (sections j (y_log y)))%N ∧
  (sh_misses s + uncounted (to_count_miss j) y = n_misses (sections j (y_log y)))%N.
Proof. intros P LW PI dbg budget ghosts cap e ls y j s H Hs. exact (balanced_all LW PI _ _ _ H j s Hs). Qed.
Print Assumptions C46_counters.

(* When all calls have returned, the totals are the sums of what the calls contributed: one lookup
   for get, none for the other plain calls, one or two for a call that loads. *)
Theorem C46_every_call_counts : ∀ (P : Params), Lawful P → ptr_ids P = true → ∀ dbg budget ghosts cap e ls (y : sys P),
  execution dbg budget ghosts cap e ls y → (∀ a, a < length (y_agents y) → returned (y_log y) a) →
  ∃ ns : list (N * N),
    Forall2 (λ ag n, ∃ r, a_pc ag = ADone r ∧ counts_as (a_call ag) r n.1 n.2) (y_agents y) ns ∧
    total_hits y = sumN (map fst ns) ∧ total_misses y = sumN (map snd ns).
Proof.
  intros P LW PI dbg budget ghosts cap e ls y H Hr. destruct (ginv LW PI _ _ _ H) as [HR _].
  exact (every_call _ HR (balanced_all LW PI _ _ _ H) Hr).
Qed.
Print Assumptions C46_every_call_counts.

(* hits() and misses() return a number between the totals when they are called and when they return *)
Theorem C46_hits_between : ∀ (P : Params), Lawful P → ptr_ids P = true → ∀ dbg budget ghosts cap e ls (y y' : sys P) n,
  execution dbg budget ghosts cap e ls y → sees_hits dbg y (Ok n) y' → (total_hits y ≤ n ≤ total_hits y')%N.
Proof. intros P LW PI dbg budget ghosts cap e ls y y' n H. destruct (ginv LW PI _ _ _ H) as [HR _]. exact (hits_between LW PI _ _ _ _ HR). Qed.
Print Assumptions C46_hits_between.
Theorem C46_misses_between : ∀ (P : Params), Lawful P → ptr_ids P = true → ∀ dbg budget ghosts cap e ls (y y' : sys P) n,
  execution dbg budget ghosts cap e ls y → sees_misses dbg y (Ok n) y' → (total_misses y ≤ n ≤ total_misses y')%N.
Proof. intros P LW PI dbg budget ghosts cap e ls y y' n H. destruct (ginv LW PI _ _ _ H) as [HR _]. exact (misses_between LW PI _ _ _ _ HR). Qed.
Print Assumptions C46_misses_between.
(* so they never go back *)
Theorem C46_never_back : ∀ (P : Params), Lawful P → ptr_ids P = true → ∀ dbg budget ghosts cap e ls (y1 y2 y3 y4 : sys P) ls' n m,
  execution dbg budget ghosts cap e ls y1 → steps dbg y2 ls' y3 →
  (sees_hits dbg y1 (Ok n) y2 ∧ sees_hits dbg y3 (Ok m) y4 ∨ sees_misses dbg y1 (Ok n) y2 ∧ sees_misses dbg y3 (Ok m) y4) → (n ≤ m)%N.
Proof.
  intros P LW PI dbg budget ghosts cap e ls y1 y2 y3 y4 ls' n m H Hs Hw. destruct (ginv LW PI _ _ _ H) as [HR _].
  destruct Hw as [[H1 H2]|[H1 H2]]; destruct H1 as (vs & l1 & H1 & Hn).
  - pose proof (watch_steps _ _ _ _ _ _ _ _ H1) as S1. pose proof (reach_steps LW PI _ _ _ _ HR S1) as HR2.
    pose proof (reach_steps LW PI _ _ _ _ HR2 Hs) as HR3. destruct (totals_grow LW PI _ _ _ _ HR2 Hs) as [? _].
    pose proof (hits_between LW PI dbg y1 n y2 HR ltac:(by exists vs, l1)). pose proof (hits_between LW PI _ _ _ _ HR3 H2). lia.
  - pose proof (watch_steps _ _ _ _ _ _ _ _ H1) as S1. pose proof (reach_steps LW PI _ _ _ _ HR S1) as HR2.
    pose proof (reach_steps LW PI _ _ _ _ HR2 Hs) as HR3. destruct (totals_grow LW PI _ _ _ _ HR2 Hs) as [_ ?].
    pose proof (misses_between LW PI dbg y1 n y2 HR ltac:(by exists vs, l1)). pose proof (misses_between LW PI _ _ _ _ HR3 H2). lia.
Qed.
Print Assumptions C46_never_back.

(* capacity() always returns the same *)
Theorem C46_capacity : ∀ (P : Params), Lawful P → ptr_ids P = true → ∀ dbg budget ghosts cap e ls (y y' : sys P) r,
  execution dbg budget ghosts cap e ls y → sees_capacity dbg y r y' →
  r = if (2 ^ e * cap <? two64)%N then Ok (2 ^ e * cap)%N else Fail WeightOvf.
Proof.
  intros P LW PI dbg budget ghosts cap e ls y y' r H Hw. destruct (ginv LW PI _ _ _ H) as [HR _].
  rewrite (capacity_seen LW PI _ _ _ _ HR Hw), sum64_eq.
  assert (∀ n, foldr N.add 0%N (replicate n cap) = (N.of_nat n * cap)%N) as ->; [|by rewrite N2Nat.id].
  intros n. induction n as [|n IH]; [done|]. cbn [replicate foldr]. rewrite IH. lia.
Qed.
Print Assumptions C46_capacity.
(* weight() never returns more than that, although it is not a snapshot, when nothing is pinned *)
Theorem C46_weight_bound : ∀ (P : Params), Lawful P → ptr_ids P = true → ∀ dbg budget ghosts cap e ls (y y' : sys P) r,
  execution dbg budget ghosts cap e ls y → (∀ k v, pinned P k v = false) → (budget ≤ cap)%N → (2 ^ e * cap < two64)%N →
  sees_weight dbg y r y' → ∃ w, r = Ok w ∧ (w ≤ 2 ^ e * cap)%N.
Proof. intros P LW PI dbg budget ghosts cap e ls y y' r H. destruct (ginv LW PI _ _ _ H) as [HR _]. exact (weight_seen LW PI _ _ _ _ HR). Qed.
Print Assumptions C46_weight_bound.

(* len(), weight() and is_empty() are exact while the others only read *)
Theorem C46_len_quiet : ∀ (P : Params), Lawful P → ptr_ids P = true → ∀ dbg budget ghosts cap e ls (y y' : sys P) es r,
  execution dbg budget ghosts cap e ls y → y_log y' = y_log y ++ es → (∀ j, forallb only_reads (sections j es) = true) →
  sees_len dbg y r y' → let n := N.of_nat (length (all_items y)) in r = if (n <? two64)%N then Ok n else Fail WeightOvf.
Proof. intros P LW PI dbg budget ghosts cap e ls y y' es r H. destruct (ginv LW PI _ _ _ H) as [HR _]. exact (len_seen LW PI _ _ _ _ _ HR). Qed.
Print Assumptions C46_len_quiet.
Theorem C46_weight_quiet : ∀ (P : Params), Lawful P → ptr_ids P = true → ∀ dbg budget ghosts cap e ls (y y' : sys P) es r,
  execution dbg budget ghosts cap e ls y → y_log y' = y_log y ++ es → (∀ j, forallb only_reads (sections j es) = true) →
  sees_weight dbg y r y' → let w := wsum (all_items y) in r = if (w <? two64)%N then Ok w else Fail WeightOvf.
Proof. intros P LW PI dbg budget ghosts cap e ls y y' es r H. destruct (ginv LW PI _ _ _ H) as [HR _]. exact (weight_quiet LW PI _ _ _ _ _ HR). Qed.
Print Assumptions C46_weight_quiet.
Theorem C46_is_empty_quiet : ∀ (P : Params), Lawful P → ptr_ids P = true → ∀ dbg budget ghosts cap e ls (y y' : sys P) es b,
  execution dbg budget ghosts cap e ls y → y_log y' = y_log y ++ es → (∀ j, forallb only_reads (sections j es) = true) →
  sees_is_empty dbg y b y' → (b = true ↔ all_items y = []).
Proof. intros P LW PI dbg budget ghosts cap e ls y y' es b H. destruct (ginv LW PI _ _ _ H) as [HR _]. exact (empty_seen LW PI _ _ _ _ _ HR). Qed.
Print Assumptions C46_is_empty_quiet.
(* In general len() adds up what each shard held at a moment of its own, during the call. *)
Theorem C46_len_moments : ∀ (P : Params), Lawful P → ptr_ids P = true → ∀ dbg budget ghosts cap e ls (y y' : sys P) r,
  execution dbg budget ghosts cap e ls y → sees_len dbg y r y' → ∃ cs : list (list (K P * V P)),
  (let n := N.of_nat (length (concat cs)) in r = if (n <? two64)%N then Ok n else Fail WeightOvf) ∧ length cs = N.to_nat (2 ^ e) ∧
  ∀ j c, cs !! j = Some c → ∃ ls1 y1 s ls2, steps dbg y ls1 y1 ∧ steps dbg y1 ls2 y' ∧ sc_shards (y_cache y1) !! j = Some s ∧ c = sh_iter s.
Proof. intros P LW PI dbg budget ghosts cap e ls y y' r H. destruct (ginv LW PI _ _ _ H) as [HR _]. exact (len_moments LW PI _ _ _ _ HR). Qed.
Print Assumptions C46_len_moments.
(* They are no snapshots: is_empty() can return true, and len() zero, although at every moment of the
   call something was cached. *)
Theorem C46_snapshot_refuted : ∃ (P : Params) dbg budget ghosts cap e ls (y y' : sys P) ls',
  Lawful P ∧ ptr_ids P = true ∧ execution dbg budget ghosts cap e ls y ∧
  (∃ vs, watch dbg sh_len (λ n, (n =? 0)%N) 0 y vs ls' y' ∧ forallb (λ n, (n =? 0)%N) vs = true) ∧
  (∃ vs, watch dbg sh_len all 0 y vs ls' y' ∧ sum64 vs = Ok 0%N) ∧
  ∀ l1 l2 y1, ls' = l1 ++ l2 → steps dbg y l1 y1 → all_items y1 ≠ [].
Proof.
  exists SH, true, 10%N, 3%N, 14%N, 1%N, (on_ls x_one), one, moved, ([] ++ (moving ++ [])).
  split; [exact lawSH|]. split; [done|]. split; [exact (on_execution x_one)|].
  assert (∀ more, more 0%N = true → watch true sh_len more 0 one [0%N; 0%N] ([] ++ (moving ++ [])) moved) as Hw.
  { intros more Hm.
    assert (∃ s, sc_shards (y_cache one) !! 0 = Some s ∧ 0%N = sh_len s) as (s0 & H0 & E0) by (apply fmap_Some; computed).
    assert (∃ s, sc_shards (y_cache moved) !! 1 = Some s ∧ 0%N = sh_len s) as (s1 & H1 & E1) by (apply fmap_Some; computed).
    rewrite E0 at 1. rewrite E1.
    eapply wt_next; [constructor|exact H0|computed|by rewrite <-E0|].
    eapply wt_next; [exact moving_steps|exact H1|computed|by rewrite <-E1|]. apply wt_end.
    assert (length (sc_shards (y_cache moved)) = 2) as -> by computed. lia. }
  split; [exists [0%N; 0%N]; split; [by apply Hw|done]|]. split; [exists [0%N; 0%N]; split; [by apply Hw|done]|].
  intros l1 l2 y1 E Hs He.
  assert (forallb (λ y, negb (Nat.eqb (length (all_items y)) 0)) (states true one ([] ++ moving ++ [])) = true) as Hf by computed.
  pose proof (states_all true _ _ _ Hf l1 l2 y1 E Hs) as Hn. cbv beta in Hn. by rewrite He in Hn.
Qed.
Print Assumptions C46_snapshot_refuted.

Example C46_example :
  (* calls that all returned: two get calls, one of them a hit; three calls that load, waited for a fourth *)
  (let y := on (x_one ++ x_move ++ x_look) in length (y_agents y) = 5 ∧ (∀ a, a < 5 → returned (y_log y) a) ∧ total_hits y = 1%N ∧ total_misses y = 1%N) ∧
  (let y := on x_load in length (y_agents y) = 4 ∧ (∀ a, a < 4 → returned (y_log y) a) ∧ total_hits y = 3%N ∧ total_misses y = 5%N) ∧
  (* an agent that has found the value, and not counted it *)
  (uncounted (to_count_hit 1) (on (x_one ++ [call_ (P:=SH) (KCmd (CGet (P:=SH) 5%N)); L (Go 1); L (Go 1)])) = 1%N) ∧
  (* observers *)
  sees_len true one (Ok 1%N) one ∧ sees_capacity true one (Ok 28%N) one ∧ sees_is_empty true one false one.
Proof.
  assert (∀ (y : sys SH) n, forallb (λ a, existsb (λ z, Nat.eqb z.1 a && match z.2 with EvRet _ => true | _ => false end) (y_log y)) (seq 0 n) = true →
    ∀ a, a < n → returned (y_log y) a) as Hr.
  { intros y n Hf a Ha. rewrite forallb_forall in Hf. specialize (Hf a). rewrite in_seq in Hf. specialize (Hf ltac:(lia)).
    apply existsb_exists in Hf as ([b ev] & Hin & Hb). simpl in Hb. apply andb_true_iff in Hb as [Hb%Nat.eqb_eq Hev]. subst b.
    destruct ev; try done. eexists. by apply elem_of_list_In. }
  assert (∃ s, sc_shards (y_cache one) !! 0 = Some s ∧ (0, 14)%N = (sh_len s, sh_capacity s)) as (s0 & H0 & E0) by (apply (fmap_Some (λ s, (sh_len s, sh_capacity s))); computed).
  assert (∃ s, sc_shards (y_cache one) !! 1 = Some s ∧ (1, 14)%N = (sh_len s, sh_capacity s)) as (s1 & H1 & E1) by (apply (fmap_Some (λ s, (sh_len s, sh_capacity s))); computed).
  assert (length (sc_shards (y_cache one)) = 2) as El by computed.
  injection E0 as E0 E0'. injection E1 as E1 E1'.
  split; [cbv zeta; split; [computed|]; split; [apply Hr; computed|]; split; computed|].
  split; [cbv zeta; split; [computed|]; split; [apply Hr; computed|]; split; computed|].
  split; [computed|].
  split; [|split].
  - exists [sh_len s0; sh_len s1], ([] ++ [] ++ []). split; [|by rewrite <-E0, <-E1].
    eapply wt_next; [constructor|exact H0|computed|done|]. eapply wt_next; [constructor|exact H1|computed|done|]. apply wt_end. rewrite El. lia.
  - exists [sh_capacity s0; sh_capacity s1], ([] ++ [] ++ []). split; [|by rewrite <-E0', <-E1'].
    eapply wt_next; [constructor|exact H0|computed|done|]. eapply wt_next; [constructor|exact H1|computed|done|]. apply wt_end. rewrite El. lia.
  - exists [sh_len s0; sh_len s1], ([] ++ []). split; [|by rewrite <-E0, <-E1].
    eapply wt_next; [constructor|exact H0|computed|by rewrite <-E0|]. eapply wt_stop; [constructor|exact H1|computed|by rewrite <-E1].
Qed.
