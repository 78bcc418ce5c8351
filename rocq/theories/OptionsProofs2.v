(* Proofs about the number and size of the shards (Options.v). *)
From Verif Require Import Options.

Local Open Scope N_scope.

Lemma next_pow2_ok n : n ≤ 2 ^ 63 → ∃ e, e ≤ 63 ∧ next_pow2 n = Ok (2 ^ e) ∧ n ≤ 2 ^ e ∧ (e = 0 ∨ 2 ^ e < 2 * n).
Proof.
  intros H. unfold next_pow2. destruct (N.leb_spec n 1) as [L|L].
  - exists 0. split; [lia|]. split; [reflexivity|]. simpl. lia.
  - pose proof (N.log2_spec (n - 1) ltac:(lia)) as [L1 L2].
    set (e := N.log2 (n - 1)) in *.
    assert (e < 63) as He.
    { apply (N.pow_lt_mono_r_iff 2); [lia|]. lia. }
    exists (e + 1). rewrite N.add_1_r in *. 
    assert (2 ^ N.succ e ≤ 2 ^ 63) as H63 by (apply N.pow_le_mono_r; lia).
    assert (2 ^ N.succ e < two64) as H64 by (unfold two64; change (2 ^ 63) with 9223372036854775808 in H63; lia).
    split; [lia|]. split.
    + destruct (N.ltb_spec (2 ^ N.succ e) two64); [reflexivity|lia].
    + split; [lia|]. right. rewrite N.pow_succ_r'. lia.
Qed.
Lemma next_pow2_fail n : 2 ^ 63 < n → next_pow2 n = Fail Panic.
Proof.
  intros H. unfold next_pow2. destruct (N.leb_spec n 1) as [L|L]; [lia|].
  assert (63 ≤ N.log2 (n - 1)) as He.
  { change 63 with (N.log2 (2 ^ 63)). apply N.log2_le_mono. lia. }
  assert (2 ^ 64 ≤ 2 ^ (N.log2 (n - 1) + 1)) by (apply N.pow_le_mono_r; lia).
  destruct (N.ltb_spec (2 ^ (N.log2 (n - 1) + 1)) two64); [|reflexivity].
  unfold two64 in *. change (2 ^ 64) with 18446744073709551616 in *. lia.
Qed.

Lemma fit_shards_ok fuel items e : e < N.of_nat fuel →
  ∃ e', e' ≤ e ∧ fit_shards fuel items (2 ^ e) = Ok (2 ^ e') ∧
    (e' = 0 ∨ 32 ≤ share items (2 ^ e')) ∧ (e' < e → share items (2 ^ (e' + 1)) < 32).
Proof.
  revert e. induction fuel as [|fuel IH]; intros e He; [lia|].
  cbn [fit_shards].
  destruct (N.ltb_spec (share items (2 ^ e)) 32) as [L|L]; simpl.
  2:{ exists e. split; [lia|]. split; [reflexivity|]. split; [auto|lia]. }
  destruct (decide (e = 0)) as [->|Hn].
  { exists 0. simpl. split; [lia|]. split; [reflexivity|]. split; [auto|lia]. }
  assert (1 < 2 ^ e) as H1 by (apply N.pow_gt_1; lia).
  destruct (N.ltb_spec 1 (2 ^ e)); [|lia].
  assert (2 ^ e / 2 = 2 ^ (e - 1)) as ->.
  { replace e with (N.succ (e - 1)) at 1 by lia. rewrite N.pow_succ_r', N.mul_comm.
    apply N.div_mul. lia. }
  destruct (IH (e - 1)) as (e' & H2 & H3 & H4 & H5); [lia|].
  exists e'. split; [lia|]. split; [exact H3|]. split; [exact H4|].
  intros He'. destruct (decide (e' = e - 1)) as [->|].
  - replace (e - 1 + 1) with e by lia. exact L.
  - apply H5. lia.
Qed.

Lemma num_shards_ok req items : req ≤ 2 ^ 63 →
  ∃ e p, num_shards req items = Ok (2 ^ e) ∧ e ≤ p ≤ 63 ∧ req ≤ 2 ^ p ∧ (p = 0 ∨ 2 ^ p < 2 * req) ∧
    (e = 0 ∨ 32 ≤ share items (2 ^ e)) ∧ (e < p → share items (2 ^ (e + 1)) < 32).
Proof.
  intros H. unfold num_shards. destruct (next_pow2_ok req H) as (p & Hp & -> & H1 & H2). simpl rbind.
  destruct (fit_shards_ok 64 items p) as (e & H3 & H4 & H5 & H6); [lia|].
  exists e, p. split; [exact H4|]. split; [lia|]. auto.
Qed.
Lemma num_shards_inv req items n : num_shards req items = Ok n → req ≤ 2 ^ 63 ∧ ∃ e, e ≤ 63 ∧ n = 2 ^ e.
Proof.
  intros H. destruct (N.le_gt_cases req (2 ^ 63)) as [L|L].
  - split; [exact L|]. destruct (num_shards_ok req items L) as (e & p & E & He & _).
    rewrite H in E. injection E as ->. exists e. split; [lia|reflexivity].
  - unfold num_shards in H. rewrite next_pow2_fail in H by exact L. discriminate.
Qed.

Lemma pow63 e : e ≤ 63 → 2 ^ e ≤ 2 ^ 63.
Proof. intros. apply N.pow_le_mono_r; lia. Qed.
Lemma pow_pos e : 1 ≤ 2 ^ e.
Proof. pose proof (N.pow_nonzero 2 e). lia. Qed.

(* share is the rounded-up quotient, unless the addition saturates *)
Lemma share_up total n : 1 ≤ n → total + (n - 1) < two64 →
  total ≤ n * share total n < total + n.
Proof.
  intros Hn H. unfold share, sat_add. rewrite N.min_l by lia.
  pose proof (N.div_mod (total + (n - 1)) n ltac:(lia)).
  pose proof (N.mod_lt (total + (n - 1)) n ltac:(lia)).
  generalize dependent ((total + (n - 1)) `mod` n). generalize ((total + (n - 1)) / n).
  intros q r. generalize (n * q). intros; lia.
Qed.
Lemma share_sat total e : e ≤ 63 → two64 ≤ total + (2 ^ e - 1) → 2 ^ e * share total (2 ^ e) = two64 - 2 ^ e.
Proof.
  intros He H. unfold share, sat_add. rewrite N.min_r by lia.
  pose proof (pow_pos e).
  assert (two64 = 2 ^ e * 2 ^ (64 - e)) as E.
  { rewrite <- N.pow_add_r. replace (e + (64 - e)) with 64 by lia. reflexivity. }
  assert ((two64 - 1) / 2 ^ e = 2 ^ (64 - e) - 1) as ->.
  { symmetry. apply (N.div_unique _ _ _ (2 ^ e - 1)); [lia|].
    rewrite N.mul_sub_distr_l, <- E. pose proof (pow_pos (64 - e)).
    assert (2 ^ e ≤ two64) by (rewrite E; nia). lia. }
  rewrite N.mul_sub_distr_l, <- E. lia.
Qed.

Lemma share_ge32 items e : e ≤ 63 → items < two64 → 32 ≤ share items (2 ^ e) → 31 * 2 ^ e < items.
Proof.
  intros He Hi H. pose proof (pow_pos e). pose proof (pow63 e He) as L.
  destruct (N.lt_ge_cases (items + (2 ^ e - 1)) two64) as [L'|L'].
  - pose proof (share_up items (2 ^ e) ltac:(lia) L'). nia.
  - pose proof (share_sat items e He L'). nia.
Qed.
Lemma share_lt32 items n : 1 ≤ n → items + (n - 1) < two64 → share items n < 32 → items ≤ 31 * n.
Proof. intros Hn L H. pose proof (share_up items n Hn L). nia. Qed.

Section caches.
Context {P : Params}.

Lemma sync_new_inv o (c : scache P) : sync_new o = Ok c → ∃ e,
  o_shards o ≤ 2 ^ 63 ∧ e ≤ 63 ∧ num_shards (o_shards o) (o_items o) = Ok (2 ^ e) ∧ sc_mask c = 2 ^ e - 1 ∧
  sc_shards c = replicate (N.to_nat (2 ^ e))
    (shard_new (o_hot o) (o_ghost o) (share (o_items o) (2 ^ e)) (share (o_weight o) (2 ^ e))).
Proof.
  unfold sync_new. destruct (num_shards _ _) as [n|] eqn:E; [|discriminate].
  simpl. intros [= <-]. simpl.
  destruct (num_shards_inv _ _ _ E) as (H1 & e & He & ->).
  exists e. split_and!; auto.
Qed.
Lemma sync_new_ok o : o_shards o ≤ 2 ^ 63 → ∃ c, @sync_new P o = Ok c.
Proof.
  intros H. unfold sync_new. destruct (num_shards_ok _ (o_items o) H) as (e & p & -> & _). simpl. eauto.
Qed.
Lemma sync_new_fail o : 2 ^ 63 < o_shards o → @sync_new P o = Fail Panic.
Proof. intros H. unfold sync_new, num_shards. rewrite next_pow2_fail by exact H. reflexivity. Qed.

Lemma land_mask a e : N.land a (2 ^ e - 1) = a mod 2 ^ e.
Proof. rewrite N.sub_1_r, <- N.ones_equiv. apply N.land_ones. Qed.
Lemma shard_idx_lt e (k : K P) : (shard_idx (2 ^ e - 1) k < N.to_nat (2 ^ e))%nat.
Proof.
  unfold shard_idx. rewrite land_mask. pose proof (pow_pos e).
  pose proof (N.mod_lt (rotate32 (hash P k)) (2 ^ e) ltac:(lia)). lia.
Qed.
Lemma shard_for_some o (c : scache P) k : sync_new o = Ok c → 
  shard_for c k = Some (shard_idx (sc_mask c) k) ∧ (shard_idx (sc_mask c) k < length (sc_shards c))%nat.
Proof.
  intros H. destruct (sync_new_inv _ _ H) as (e & _ & _ & _ & Em & Es).
  assert (shard_idx (sc_mask c) k < length (sc_shards c))%nat as L.
  { rewrite Em, Es, replicate_length. apply shard_idx_lt. }
  split; [|exact L]. unfold shard_for. rewrite decide_True by exact L. reflexivity.
Qed.
Lemma shard_idx_bits e (k : K P) : e ≤ 32 → 
  N.of_nat (shard_idx (2 ^ e - 1) k) = (hash P k / 2 ^ 32) mod 2 ^ e.
Proof.
  intros He. unfold shard_idx. rewrite N2Nat.id, land_mask. unfold rotate32.
  replace two32 with (2 ^ (32 - e) * 2 ^ e) at 3.
  2:{ rewrite <- N.pow_add_r. replace (32 - e + e) with 32 by lia. reflexivity. }
  rewrite N.mul_assoc, N.mod_add; [reflexivity|]. pose proof (pow_pos e); lia.
Qed.

Lemma sum64_replicate n (x : N) : N.of_nat n * x < two64 → sum64 (replicate n x) = Ok (N.of_nat n * x).
Proof.
  induction n as [|n IH]; intros H; [reflexivity|]. cbn [replicate sum64]. rewrite IH by lia.
  simpl rbind. unfold wadd. destruct (N.ltb_spec (x + N.of_nat n * x) two64); [f_equal; lia|lia].
Qed.
Lemma sc_capacity_eq o (c : scache P) n : sync_new o = Ok c → N.of_nat (length (sc_shards c)) = n →
  o_weight o < two64 → sc_capacity c = Ok (n * share (o_weight o) n) ∧ sc_shard_capacity c = Ok (share (o_weight o) n).
Proof.
  intros H Hn Hw. destruct (sync_new_inv _ _ H) as (e & _ & He & _ & Em & Es).
  rewrite Es, replicate_length, N2Nat.id in Hn. subst n.
  pose proof (pow_pos e) as Hp. pose proof (pow63 e He) as Hp2.
  assert (2 ^ e * share (o_weight o) (2 ^ e) < two64) as L.
  { destruct (N.lt_ge_cases (o_weight o + (2 ^ e - 1)) two64) as [L'|L'].
    - pose proof (share_up (o_weight o) (2 ^ e) ltac:(lia) L'). lia.
    - rewrite (share_sat (o_weight o) e He L'). unfold two64. lia. }
  unfold sc_capacity, sc_shard_capacity. rewrite Es. split.
  - rewrite fmap_replicate. simpl sh_capacity. rewrite sum64_replicate; rewrite N2Nat.id; auto.
  - destruct (N.to_nat (2 ^ e)) eqn:E; [lia|]. reflexivity.
Qed.
End caches.
