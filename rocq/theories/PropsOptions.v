(* Property theorems about construction: C27, C28, C30, C31. [B2R] is the real number denoted by
   a double and [is_finite] excludes NaN and the infinities; both are Flocq's. *)
From Coq Require Import Reals Lra Lia.
From Flocq Require Import Core IEEE754.BinarySingleNaN.
From stdpp Require Import list.
From Verif Require Import Options OptionsProofs OptionsProofs2 Demo.

(* C27: for every requested number of shards up to 2^63 a sync cache is built. Its number of
   shards is a power of two, at most the requested number rounded up to a power of two; it is
   one, or each shard expects at least 32 items (the items rounded up over the shards); and it
   is not smaller than that rule demands. *)
Theorem C27_shard_count : ∀ (P : Params) o, (o_shards o ≤ 2 ^ 63)%N → (o_items o < 2 ^ 64)%N →
  ∃ (c : scache P) e n, sync_new o = Ok c ∧ n = sc_num_shards c ∧ n = (2 ^ e)%N ∧
    (n < 2 * N.max 1 (o_shards o))%N ∧
    (n = 1 ∨ 31 * n < o_items o)%N ∧
    (o_shards o ≤ n ∨ o_items o ≤ 31 * (2 * n) ∨ 2 ^ 64 ≤ o_items o + (2 * n - 1))%N.
Proof.
  intros P o H Hi. destruct (sync_new_ok (P:=P) o H) as [c Ec].
  destruct (sync_new_inv _ _ Ec) as (e & _ & He & En & Em & Es).
  destruct (num_shards_ok _ (o_items o) H) as (e' & p & En' & Hp & H1 & H2 & H3 & H4).
  rewrite En in En'. injection En' as En'.
  apply N.pow_inj_r in En' as <-; [|lia].
  assert (sc_num_shards c = 2 ^ e)%N as E.
  { unfold sc_num_shards. rewrite Es, replicate_length. apply N2Nat.id. }
  assert (2 ^ e ≤ 2 ^ p)%N by (apply N.pow_le_mono_r; lia).
  exists c, e, (2 ^ e)%N. split_and!; auto.
  - destruct H2 as [->|H2]; [change (2 ^ 0)%N with 1%N in *|]; lia.
  - destruct H3 as [->|H3]; [auto|]. right. apply share_ge32; [lia|exact Hi|exact H3].
  - destruct (decide (e = p)) as [->|Hne]; [auto|]. right.
    destruct (N.lt_ge_cases (o_items o + (2 * 2 ^ e - 1)) two64) as [L|L]; [left|right; exact L].
    assert (2 ^ (e + 1) = 2 * 2 ^ e)%N as E2 by (rewrite N.add_1_r; apply N.pow_succ_r').
    pose proof (OptionsProofs2.pow_pos e).
    apply share_lt32; [lia|exact L|]. rewrite <- E2. apply H4. lia.
Qed.
Print Assumptions C27_shard_count.
(* 5 requested shards for 100 items: 2 shards; for 1000 items: 8 shards *)
Example C27_shard_count_ex :
  let o i := Opts 5 default_hot default_ghost i 100 in
  num_shards 5 100 = Ok 2%N ∧ num_shards 5 1000 = Ok 8%N ∧
  match sync_new (P:=W) (o 100%N) with Ok c => length (sc_shards c) = 2 | _ => False end.
Proof. vm_compute. auto. Qed.

(* More than 2^63 shards cannot be requested: construction panics. *)
Theorem C27_too_many_shards : ∀ (P : Params) o, (2 ^ 63 < o_shards o)%N → sync_new (P:=P) o = Fail Panic.
Proof. intros. now apply sync_new_fail. Qed.
Print Assumptions C27_too_many_shards.
Example C27_too_many_shards_ex : sync_new (P:=W) (Opts (2 ^ 63 + 1) default_hot default_ghost 1 1) = Fail Panic.
Proof. now apply C27_too_many_shards. Qed.

(* C27: every key has a shard, which depends on its hash only (and so is the same for equal
   keys); up to 2^32 shards it is chosen by the bits of the hash from bit 32 up. *)
Theorem C27_shard_selection : ∀ (P : Params), Lawful P → ∀ o (c : scache P) k, sync_new o = Ok c →
  ∃ i, shard_for c k = Some i ∧ i < length (sc_shards c) ∧
    (∀ k', hash P k' = hash P k → shard_for c k' = Some i) ∧
    (∀ k', keqb P k k' = true → shard_for c k' = Some i) ∧
    ((sc_num_shards c ≤ 2 ^ 32)%N → N.of_nat i = ((hash P k / 2 ^ 32) mod sc_num_shards c)%N).
Proof.
  intros P LW o c k H. destruct (shard_for_some o c k H) as [E L].
  exists (shard_idx (sc_mask c) k). split; [exact E|]. split; [exact L|].
  assert (∀ k', hash P k' = hash P k → shard_for c k' = Some (shard_idx (sc_mask c) k)) as Eh.
  { intros k' Hk. rewrite (proj1 (shard_for_some o c k' H)). unfold shard_idx. now rewrite Hk. }
  split; [exact Eh|]. split.
  { intros k' Hk. apply Eh. symmetry. now apply (hash_keqb P LW). }
  destruct (sync_new_inv _ _ H) as (e & _ & He & En & Em & Es).
  assert (sc_num_shards c = 2 ^ e)%N as En'.
  { unfold sc_num_shards. rewrite Es, replicate_length. apply N2Nat.id. }
  rewrite En', Em. intros Hle. apply shard_idx_bits.
  destruct (N.le_gt_cases e 32) as [?|G]; [assumption|].
  assert (2 ^ 32 < 2 ^ e)%N by (apply N.pow_lt_mono_r; lia). lia.
Qed.
Print Assumptions C27_shard_selection.

(* C28: capacity() is the number of shards times shard_capacity(); it is at least the requested
   capacity, and exceeds it by less than the number of shards, unless the requested capacity
   is within that distance of 2^64. Neither call panics. *)
Theorem C28_capacity : ∀ (P : Params) o (c : scache P), sync_new o = Ok c → (o_weight o < 2 ^ 64)%N →
  ∃ total each, sc_capacity c = Ok total ∧ sc_shard_capacity c = Ok each ∧ total = (sc_num_shards c * each)%N ∧
    Forall (λ s, sh_capacity s = each) (sc_shards c) ∧
    ((o_weight o + (sc_num_shards c - 1) < 2 ^ 64)%N → (o_weight o ≤ total < o_weight o + sc_num_shards c)%N) ∧
    ((2 ^ 64 ≤ o_weight o + (sc_num_shards c - 1))%N → total = (2 ^ 64 - sc_num_shards c)%N).
Proof.
  intros P o c H Hw. destruct (sc_capacity_eq o c _ H eq_refl Hw) as [E1 E2].
  destruct (sync_new_inv _ _ H) as (e & _ & He & En & Em & Es).
  assert (sc_num_shards c = 2 ^ e)%N as En'.
  { unfold sc_num_shards. rewrite Es, replicate_length. apply N2Nat.id. }
  eexists _, _. split; [exact E1|]. split; [exact E2|]. unfold sc_num_shards in *. rewrite En'.
  pose proof (OptionsProofs2.pow_pos e).
  split; [reflexivity|]. split; [rewrite Es; apply Forall_replicate; reflexivity|]. split.
  - intros L. apply share_up; [lia|exact L].
  - intros L. apply (share_sat _ e He L).
Qed.
Print Assumptions C28_capacity.
Example C28_capacity_ex :
  match sync_new (P:=W) (Opts 4 default_hot default_ghost 1000 1001) with
  | Ok c => sc_capacity c = Ok 1004%N ∧ sc_shard_capacity c = Ok 251%N | _ => False end.
Proof. vm_compute. auto. Qed.

(* Without the proviso the claim is false: a cache of capacity 2^64-1 with four shards only has
   capacity 2^64-4. *)
Theorem C28_capacity_refuted : ∃ o (c : scache W) total, (o_weight o < 2 ^ 64)%N ∧ sync_new o = Ok c ∧
  sc_capacity c = Ok total ∧ (total < o_weight o)%N.
Proof.
  destruct (sync_new (P:=W) (Opts 4 default_hot default_ghost (2 ^ 64 - 1) (2 ^ 64 - 1))) as [c|] eqn:E;
    [|vm_compute in E; discriminate].
  eexists _, c, (2 ^ 64 - 4)%N. split; [|split; [exact E|]]; [reflexivity|].
  vm_compute in E. injection E as <-. split; reflexivity.
Qed.
Print Assumptions C28_capacity_refuted.

(* C30: a sequence of builder calls goes through exactly when every hot and ghost allocation in
   it is a number in [0, 1] (so NaN and the infinities are rejected). Then build() succeeds iff
   a weight capacity and an estimated number of items were set, and every option has the value
   it was last set to, or its default. *)
Theorem C30_validation : ∀ (l : list setting),
  (∃ b, set_options b_new l = Ok b) ↔
  (∀ x, HotAlloc x ∈ l ∨ GhostAlloc x ∈ l → is_finite x = true ∧ (0 <= B2R x <= 1)%R).
Proof.
  intros l.
  assert (Forall acceptable (allocs l) ↔
    (∀ x, HotAlloc x ∈ l ∨ GhostAlloc x ∈ l → is_finite x = true ∧ (0 <= B2R x <= 1)%R)) as E.
  { rewrite Forall_forall. unfold allocs. setoid_rewrite elem_of_list_omap. split.
    - intros H x [Hx|Hx]; apply H; eexists; split; [exact Hx|reflexivity|exact Hx|reflexivity].
    - intros H x (s & Hs & Es). apply H. destruct s; try discriminate; injection Es as ->; auto. }
  rewrite <- E. split.
  - intros [b Hb]. destruct (decide (Forall (λ x, Beqb (clamp01 x) x = true) (allocs l))) as [D|D].
    + eapply Forall_impl; [exact D|]. intros x. apply accepts_iff.
    + rewrite set_options_fail in Hb; [discriminate|]. intros D'. apply D.
      eapply Forall_impl; [exact D'|]. intros x. apply accepts_iff.
  - intros H. rewrite set_options_ok by exact H. eauto.
Qed.
Print Assumptions C30_validation.

Theorem C30_build : ∀ cores (l : list setting) b, set_options b_new l = Ok b →
  ((∃ o, build cores b = inl o) ↔ (∃ w, Weight w ∈ l) ∧ (∃ i, Items i ∈ l)) ∧
  (∀ o, build cores b = inl o →
    o_shards o = default (4 * cores)%N (last (omap (λ s, match s with Shards n => Some n | _ => None end) l)) ∧
    Some (o_items o) = last (omap (λ s, match s with Items n => Some n | _ => None end) l) ∧
    Some (o_weight o) = last (omap (λ s, match s with Weight n => Some n | _ => None end) l) ∧
    o_hot o = default default_hot (last (omap (λ s, match s with HotAlloc x => Some x | _ => None end) l)) ∧
    o_ghost o = default default_ghost (last (omap (λ s, match s with GhostAlloc x => Some x | _ => None end) l))).
Proof.
  intros cores l b H. destruct (decide (Forall (λ x, Beqb (clamp01 x) x = true) (allocs l))) as [D|D].
  2:{ rewrite set_options_fail in H; [discriminate|]. intros D'. apply D.
      eapply Forall_impl; [exact D'|]. intros x. apply accepts_iff. }
  rewrite set_options_ok in H by (eapply Forall_impl; [exact D|]; intros x; apply accepts_iff).
  injection H as <-. unfold build. cbn [b_shards b_hot b_ghost b_items b_weight b_new].
  assert (∀ A (x : list A), final None x = last x) as F by (intros A x; unfold final; now destruct (last x)).
  rewrite !F. unfold shards_set, items_set, weight_set, hot_set, ghost_set.
  assert (∀ (g : setting → option N), (∃ x, last (omap g l) = Some x) ↔ ∃ s x, s ∈ l ∧ g s = Some x) as L.
  { intros g. split.
    - intros [x Hx]. apply last_Some_elem_of, elem_of_list_omap in Hx as (s & ? & ?). eauto.
    - intros (s & x & Hs & Hg). destruct (last (omap g l)) eqn:E; [eauto|].
      apply last_None in E. assert (x ∈ omap g l) as Hx by (apply elem_of_list_omap; eauto).
      rewrite E in Hx. now apply elem_of_nil in Hx. }
  pose proof (L (λ s, match s with Weight n => Some n | _ => None end)) as Lw.
  pose proof (L (λ s, match s with Items n => Some n | _ => None end)) as Li.
  assert ((∃ s x, s ∈ l ∧ match s with Weight n => Some n | _ => None end = Some x) ↔ ∃ w, Weight w ∈ l) as Ew.
  { split; [intros (s & x & ? & ?); destruct s; naive_solver|intros [w ?]; exists (Weight w), w; auto]. }
  assert ((∃ s x, s ∈ l ∧ match s with Items n => Some n | _ => None end = Some x) ↔ ∃ w, Items w ∈ l) as Ei.
  { split; [intros (s & x & ? & ?); destruct s; naive_solver|intros [w ?]; exists (Items w), w; auto]. }
  rewrite Ew in Lw. rewrite Ei in Li. rewrite <- Lw, <- Li. clear.
  destruct (last (omap (λ s, match s with Weight n => Some n | _ => None end) l)) as [w|]; simpl.
  2:{ split; [|discriminate]. split; [intros [? ?]; discriminate|intros [[? ?] _]; discriminate]. }
  destruct (last (omap (λ s, match s with Items n => Some n | _ => None end) l)) as [i|]; simpl.
  2:{ split; [|discriminate]. split; [intros [? ?]; discriminate|intros [_ [? ?]]; discriminate]. }
  split; [split; eauto|]. intros o [= <-]. simpl. rewrite (N.mul_comm cores). auto.
Qed.
Print Assumptions C30_build.
(* 0.5 and 1.0 are accepted, NaN is not; shards default to four per core *)
Example C30_ex :
  let l := [Items 10; HotAlloc f64_one; Weight 3; Weight 7; GhostAlloc default_ghost] in
  match set_options b_new l with
  | Ok b => build 2 b = inl (Opts 8 f64_one default_ghost 10 7)
  | _ => False
  end ∧ set_options b_new (l ++ [HotAlloc B754_nan]) = Fail Panic ∧
  build 2 (with_items b_new 3) = inr WeightNotSet ∧ build 2 (with_weight b_new 3) = inr ItemsNotSet.
Proof. vm_compute. auto. Qed.

(* the defaults are 0.5 and the double nearest to 0.97: doubles below 1 and above 1/2 are 2^-53 apart *)
Theorem C30_defaults :
  B2R default_ghost = (1 / 2)%R ∧ (Rabs (B2R default_hot - 97 / 100) <= / 2 ^ 54)%R.
Proof.
  split; [unfold default_ghost, B2R, F2R; simpl; lra|].
  unfold default_hot, B2R, F2R; simpl. apply Rabs_le. lra.
Qed.
Print Assumptions C30_defaults.

(* C31: with the default allocation the hot budget of a cache never exceeds its capacity, for
   every 64-bit capacity; more generally for every allocation up to 1 - 2^-52. *)
Theorem C31_hot_budget : ∀ cap (a : f64), (cap < 2 ^ 64)%N → is_finite a = true →
  (0 <= B2R a <= 1 - / 2 ^ 52)%R → (hot_budget cap a ≤ cap)%N.
Proof.
  intros cap a Hc Hf Ha. apply hot_le_any; [exact Hc|exact Hf|].
  replace (bpow radix2 (-52)) with (/ 2 ^ 52)%R by (simpl; lra). exact Ha.
Qed.
Print Assumptions C31_hot_budget.
Theorem C31_default_hot_budget : ∀ cap, (cap < 2 ^ 64)%N → (hot_budget cap default_hot ≤ cap)%N.
Proof. intros cap Hc. apply hot_le_any; [exact Hc|reflexivity|apply default_hot_R]. Qed.
Print Assumptions C31_default_hot_budget.
(* so it holds of the unsync cache, and of every shard of a sync cache, built with the default *)
Theorem C31_caches : ∀ (P : Params) o, (o_weight o < 2 ^ 64)%N → o_hot o = default_hot →
  (sh_target_hot (unsync_new (P:=P) o) ≤ sh_capacity (unsync_new (P:=P) o))%N ∧
  ∀ c : scache P, sync_new o = Ok c → Forall (λ s, (sh_target_hot s ≤ sh_capacity s)%N) (sc_shards c).
Proof.
  intros P o Hw Hh. split; [simpl; rewrite Hh; now apply C31_default_hot_budget|].
  intros c H. destruct (sync_new_inv _ _ H) as (e & _ & He & _ & _ & ->). apply Forall_replicate.
  simpl. rewrite Hh. apply C31_default_hot_budget. unfold share.
  eapply N.le_lt_trans; [apply N.div_le_mono with (b := (2 ^ 64 - 1)%N)|].
  - pose proof (OptionsProofs2.pow_pos e). lia.
  - apply N.le_min_r.
  - eapply N.le_lt_trans; [apply N.div_le_upper_bound with (q := (2 ^ 64 - 1)%N)|reflexivity];
      pose proof (OptionsProofs2.pow_pos e); nia.
Qed.
Print Assumptions C31_caches.
(* and for every allocation in [0, 1] if the capacity is at most 2^53 *)
Theorem C31_small_caches : ∀ cap (a : f64), (cap ≤ 2 ^ 53)%N → is_finite a = true →
  (0 <= B2R a <= 1)%R → (hot_budget cap a ≤ cap)%N.
Proof. exact hot_le_small. Qed.
Print Assumptions C31_small_caches.
(* up to 2^52 it is the requested portion of the capacity, rounded *)
Theorem C31_hot_budget_is_portion : ∀ cap (a : f64), (cap ≤ 2 ^ 52)%N → is_finite a = true → (0 <= B2R a <= 1)%R →
  (IZR (Z.of_N cap) * B2R a - 3 / 2 <= IZR (Z.of_N (hot_budget cap a)) <= IZR (Z.of_N cap) * B2R a + 1 / 2)%R.
Proof. exact hot_near. Qed.
Print Assumptions C31_hot_budget_is_portion.
Example C31_ex : hot_budget 1000 default_hot = 970%N ∧ hot_budget 1000 f64_one = 1000%N ∧
  hot_budget (2 ^ 64 - 1) default_hot = 17893341751498264576%N.
Proof. vm_compute. auto. Qed.
(* An unsync cache is built with the requested weight capacity, and the number of evicted keys it
   remembers is at most its ghost allocation's portion of the expected items (plus rounding);
   each shard of a sync cache has its own share of the items and of the weight. *)
Theorem C31_built_as_asked : ∀ (P : Params) o, (o_items o ≤ 2 ^ 52)%N → is_finite (o_ghost o) = true → (0 <= B2R (o_ghost o) <= 1)%R →
  sh_capacity (unsync_new (P:=P) o) = o_weight o ∧
  (IZR (Z.of_N (o_items o)) * B2R (o_ghost o) - 3 / 2 <= IZR (Z.of_N (sh_cap_nr (unsync_new (P:=P) o))) <=
   IZR (Z.of_N (o_items o)) * B2R (o_ghost o) + 1 / 2)%R.
Proof. intros P o H1 H2 H3. split; [done|]. exact (hot_near (o_items o) (o_ghost o) H1 H2 H3). Qed.
Print Assumptions C31_built_as_asked.
Theorem C31_built_as_asked_sync : ∀ (P : Params) o (c : scache P), sync_new o = Ok c →
  is_finite (o_ghost o) = true → (0 <= B2R (o_ghost o) <= 1)%R →
  Forall (λ s, ∀ items, items = share (o_items o) (N.of_nat (length (sc_shards c))) → (items ≤ 2 ^ 52)%N →
    sh_capacity s = share (o_weight o) (N.of_nat (length (sc_shards c))) ∧
    (IZR (Z.of_N items) * B2R (o_ghost o) - 3 / 2 <= IZR (Z.of_N (sh_cap_nr s)) <= IZR (Z.of_N items) * B2R (o_ghost o) + 1 / 2)%R)
    (sc_shards c).
Proof.
  intros P o c H H2 H3. destruct (sync_new_inv _ _ H) as (e & _ & _ & _ & _ & Hs). rewrite Hs, replicate_length, N2Nat.id.
  apply Forall_replicate. intros items -> H1. split; [done|].
  exact (hot_near _ (o_ghost o) H1 H2 H3).
Qed.
Print Assumptions C31_built_as_asked_sync.
Example C31_built_ex : ghost_capacity 1000 default_ghost = 500%N ∧ ghost_capacity 1000 f64_one = 1000%N.
Proof. vm_compute. auto. Qed.
(* For the accepted allocation 1.0 and a large capacity the budget exceeds the capacity. *)
Theorem C31_hot_budget_refuted : ∃ cap (a : f64), (cap < 2 ^ 64)%N ∧ Beqb (clamp01 a) a = true ∧ (cap < hot_budget cap a)%N.
Proof. exists (2 ^ 53 + 3)%N, f64_one. vm_compute. auto. Qed.
Print Assumptions C31_hot_budget_refuted.
