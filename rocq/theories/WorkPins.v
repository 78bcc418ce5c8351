(* A cache whose items are all pinned, filled beyond its capacity: every insert looks at all of
   them again. *)
From Verif Require Import PropsSeqA PropsSeqB MentionProofs.
From Verif Require Export WorkLow Demo.

(* every item weighs 1 and is pinned, keys are their own hashes, the default hooks *)
Definition Y : Params := {|
  K := N; V := N; RS := N;
  keqb := N.eqb;
  hash := λ k, k;
  weight := λ _ _, 1%N;
  pinned := λ _ _, true;
  before_evict := λ rs _ v, (rs, v);
  on_evict := λ rs _ _, rs;
  probe := λ T h, (List.filter (λ p, p.1 =? h)%N (tpairs T)).*2;
  titer := λ T, (tpairs T).*2;
  grows := λ _, true;
  ptr_ids := false;
|}.
Lemma lawY : Lawful Y.
Proof.
  split; simpl.
  - intros. apply N.eqb_refl.
  - intros k k' H. apply N.eqb_eq in H as ->. apply N.eqb_refl.
  - intros a b c Hab Hbc. apply N.eqb_eq in Hab as ->. done.
  - intros k k' H. by apply N.eqb_eq in H as ->.
  - intros T h t Hin. apply elem_of_list_fmap in Hin as (p & -> & Hp). apply elem_of_list_In, filter_In in Hp as [Hp _].
    apply elem_of_list_fmap. exists p. split; [done|]. by apply elem_of_list_In.
  - intros T h t Hin. apply elem_of_list_fmap. exists (h, t). split; [done|]. apply elem_of_list_In, filter_In. split; [by apply elem_of_list_In|].
    simpl. apply N.eqb_refl.
  - done.
Qed.

Lemma effort_snoc {P : Params} f (s s' : shard P) h os m : run s h = Ok (s', os) →
  effort f s (h ++ [m]) = (effort f s h + call_effort f s' m)%N.
Proof.
  revert s os. induction h as [|c h IH]; intros s os; simpl.
  - intros [= <- _]. destruct (exec s m) as [[? ?]|]; lia.
  - destruct (exec s c) as [[s1 o]|]; cbn [rbind]; [|done]. destruct (run s1 h) as [[s2 os2]|] eqn:E; cbn [rbind]; [|done].
    intros [= <- _]. rewrite (IH _ _ E). lia.
Qed.

Lemma insert_looks {P : Params} (LW : Lawful P) budget ghosts cap (h : list (cmd P)) os s rs k v wl s' o :
  history budget ghosts cap h os s → exec s (CInsert rs k v wl) = Ok (s', o) → ¬ refused budget rs k v →
  (cap < wsum (sh_iter s'))%N →
  (N.of_nat (length (filter (λ kv, weight P kv.1 kv.2 ≠ 0%N) (sh_iter s'))) ≤ call_effort looks s (CInsert rs k v wl) + 1)%N.
Proof.
  intros H He Hr Hc. destruct (history_inv LW _ _ _ _ _ _ H) as [HI Hg]. unfold cfg in Hg.
  assert (sh_target_hot s = budget) as Hg1 by congruence.
  destruct (history_step LW _ _ _ _ _ _ _ _ _ H He) as (Hst & _ & _).
  assert (sh_capacity s' = cap) as Hcap.
  { pose proof (st_cfg _ _ _ _ Hst) as Hq. unfold cfg in Hq. rewrite Hg in Hq. congruence. }
  destruct (lo_call LW s rs k v wl s' o HI) as [Hl|Hl]; [|done|lia|].
  - rewrite Hg1. destruct (admission budget rs k v) as [[[rs1 es] v1] b] eqn:Ha. simpl. destruct b; [|done]. destruct Hr. by eapply admission_refused.
  - rewrite nzs_iter in Hl. exact Hl.
Qed.

Definition pins (n : nat) : list (cmd Y) := (λ i, ins (P:=Y) 0%N (N.of_nat i) 0%N) <$> seq 0 n.
Lemma pins_S n : pins (S n) = pins n ++ [ins (P:=Y) 0%N (N.of_nat n) 0%N].
Proof. unfold pins. rewrite seq_S, fmap_app. done. Qed.
Lemma pins_length n : length (pins n) = n.
Proof. unfold pins. by rewrite fmap_length, seq_length. Qed.
Lemma pins_run n : (N.of_nat n + 1 < two32)%N → ∃ s os, history 5 5 5 (pins n) os s.
Proof.
  intros Hn. apply (C11_short_histories_succeed Y lawY _ _ _ _ 1).
  - done.
  - rewrite pins_length. unfold two64, two32 in *. lia.
  - by rewrite pins_length.
Qed.
Lemma pins_step n s os : history 5 5 5 (pins (S n)) os s →
  ∃ s0 os0 o, history 5 5 5 (pins n) os0 s0 ∧ exec s0 (ins (P:=Y) 0%N (N.of_nat n) 0%N) = Ok (s, o).
Proof.
  rewrite pins_S. intros (s1 & os1 & os2 & H1 & H2)%run_app. cbn [run] in H2.
  destruct (exec s1 (ins (P:=Y) 0%N (N.of_nat n) 0%N)) as [[s2 o]|] eqn:E; cbn [rbind] in H2; [|done]. injection H2 as <- _.
  by exists s1, os1, o.
Qed.
Lemma pins_cached n : ∀ s os, history 5 5 5 (pins n) os s → ∀ i, i < n → (N.of_nat i, 0%N) ∈ sh_iter s.
Proof.
  induction n as [|n IH]; intros s os H i Hi; [lia|]. destruct (pins_step _ _ _ H) as (s0 & os0 & o & H0 & He).
  destruct (decide (i = n)) as [->|Hne].
  - apply (C15_untracked_insert_is_cached Y lawY _ _ _ _ _ _ _ _ _ _ _ _ H0 He).
    + by intros (_ & ? & _).
    + intros t. apply (history_new (P:=Y) 5 5 5 [] (pins n) s0 os0 (N.of_nat n) H0); [by left|].
      intros c k' Hin Hk. unfold pins in Hin. apply elem_of_list_fmap in Hin as (j & -> & Hj). apply elem_of_seq in Hj. simpl in *.
      intros E. assert (k' = N.of_nat j) as -> by done. lia.
  - apply (C09_pinned_and_weightless_stay Y lawY _ _ _ _ _ _ _ _ _ _ _ H0 He).
    + apply (IH _ _ H0). lia.
    + simpl. apply N.eqb_neq. lia.
    + by right.
Qed.
Lemma pins_many n s os : history 5 5 5 (pins n) os s → n ≤ length (sh_iter s).
Proof.
  intros H. set (L := (λ i, (N.of_nat i, 0%N)) <$> seq 0 n).
  assert (length L = n) as HL by (unfold L; by rewrite fmap_length, seq_length). rewrite <-HL at 1.
  apply submseteq_length, NoDup_submseteq.
  - apply NoDup_fmap_2_strong; [|apply NoDup_seq]. intros i j _ _ [= E]. lia.
  - intros p (i & -> & Hi)%elem_of_list_fmap. apply elem_of_seq in Hi. apply (pins_cached n _ _ H). lia.
Qed.
Lemma filter_id {A} (Q : A → Prop) `{∀ x, Decision (Q x)} (L : list A) : (∀ x, Q x) → filter Q L = L.
Proof. intros HQ. induction L as [|x L IH]; [done|]. by rewrite filter_cons, decide_True, IH. Qed.
Lemma wsum_Y (c : contents Y) : wsum c = N.of_nat (length c).
Proof. induction c as [|p c IH]; [done|]. simpl in *. rewrite IH. lia. Qed.
Lemma pins_effort n : (N.of_nat n + 1 < two32)%N →
  (N.of_nat n * N.of_nat n ≤ 2 * effort looks (sh_new (P:=Y) 5 5 5) (pins n) + N.of_nat n + 20)%N.
Proof.
  induction n as [|n IH]; intros Hn; [simpl; lia|]. destruct (pins_run (S n) Hn) as (s & os & H).
  destruct (pins_step _ _ _ H) as (s0 & os0 & o & H0 & He). rewrite pins_S, (effort_snoc _ _ _ _ _ _ H0).
  specialize (IH ltac:(lia)). destruct (decide (n < 5)) as [Hs|Hs].
  { clear -Hs. generalize (effort looks (sh_new (P:=Y) 5 5 5) (pins n)), (call_effort looks s0 (ins (P:=Y) 0%N (N.of_nat n) 0%N)). intros x y.
    assert (N.of_nat (S n) * N.of_nat (S n) ≤ 5 * N.of_nat (S n))%N; [apply N.mul_le_mono_r|]; lia. }
  pose proof (pins_many _ _ _ H) as Hm. pose proof (wsum_Y (sh_iter s)) as W1.
  pose proof (insert_looks lawY _ _ _ _ _ _ _ _ _ _ _ _ H0 He) as Hl. rewrite W1, filter_id in Hl by done.
  assert (N.of_nat n ≤ call_effort looks s0 (ins (P:=Y) 0%N (N.of_nat n) 0%N))%N as Hc.
  { assert (N.of_nat (length (sh_iter s)) ≤ call_effort looks s0 (ins (P:=Y) 0%N (N.of_nat n) 0%N) + 1)%N; [|lia]. apply Hl; [by intros (_ & ? & _)|lia]. }
  revert IH Hc. clear. generalize (effort looks (sh_new (P:=Y) 5 5 5) (pins n)), (call_effort looks s0 (ins (P:=Y) 0%N (N.of_nat n) 0%N)). intros x y. lia.
Qed.
Lemma pins_beat (c : N) : (c ≤ 2 ^ 30)%N → ∃ n, (c * N.of_nat (length (pins n)) < effort looks (sh_new (P:=Y) 5 5 5) (pins n))%N.
Proof.
  intros Hc. exists (N.to_nat (2 * c + 22)). rewrite pins_length, N2Nat.id.
  assert (2 ^ 30 = 1073741824)%N as E by done. rewrite E in Hc.
  pose proof (pins_effort (N.to_nat (2 * c + 22))) as H. rewrite N2Nat.id in H. unfold two32 in H. specialize (H ltac:(lia)).
  revert H. generalize (effort looks (sh_new (P:=Y) 5 5 5) (pins (N.to_nat (2 * c + 22)))). intros x. clear. nia.
Qed.
