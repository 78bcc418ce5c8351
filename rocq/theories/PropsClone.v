(* C53: cloning a cache. The vocabulary is in PropSpec.v, Clone.v and Anew.v. *)
From Verif Require Import CloneProofs Demo.

(* A clone holds the clones of the items of the original, in the same order, with the same len(),
   weight(), capacity() and statistics. *)
Theorem C53_clone_is_a_copy : ∀ (P : Params) (s s' : shard P) ck cv, clone_of s s' ck cv →
  sh_iter s' = map (λ p, (ck p.1, cv p.2)) (sh_iter s) ∧
  sh_len s' = sh_len s ∧ sh_weight s' = sh_weight s ∧ sh_capacity s' = sh_capacity s ∧
  sh_hits s' = sh_hits s ∧ sh_misses s' = sh_misses s ∧ storage s' = storage s ∧ length (remembered s') = length (remembered s).
Proof.
  intros P s s' ck cv (T & HT & ->). split; [apply clone_iter|]. repeat (split; [done|]). split.
  - unfold storage. f_equal. apply fmap_length.
  - unfold remembered, slab_iter. simpl. generalize (ents (sh_ents s)) as l. intros l.
    induction l as [|x l IH]; [done|]. simpl. destruct (item x) as [[| |]|]; simpl; [exact IH|exact IH|f_equal; exact IH|exact IH].
Qed.
Print Assumptions C53_clone_is_a_copy.

(* However often a cache was cloned, and whatever was called in between: keys are unique, lookups
   agree with iter(), len() and weight() are exact, and ghosts are bounded. *)
Theorem C53_clones_are_sound : ∀ (P : Params), Lawful P → ∀ budget ghosts cap (h : list (cmd P)) s,
  descends budget ghosts cap h s →
  (∀ i j p q, sh_iter s !! i = Some p → sh_iter s !! j = Some q → keqb P p.1 q.1 = true → i = j) ∧
  (∀ k, ∃ r, u_peek s k = Ok r ∧ ∀ v, r = Some v ↔ ∃ k', (k', v) ∈ sh_iter s ∧ keqb P k k' = true) ∧
  sh_len s = N.of_nat (length (sh_iter s)) ∧
  sh_weight s = (if (wsum (sh_iter s) <? two64)%N then Ok (wsum (sh_iter s)) else Fail WeightOvf) ∧
  sh_capacity s = cap ∧ (N.of_nat (length (remembered s)) ≤ ghosts)%N.
Proof.
  intros P LW budget ghosts cap h s H. destruct (descends_inv LW _ _ _ _ _ H) as (HI & Hc & _).
  unfold cfg in Hc. injection Hc as _ Hc2 Hc3. split_and!; try done.
  - intros i j p q. apply (ukeys_lookup LW). by apply (inv_ukeys LW).
  - intros k. exists (value_of k (sh_iter s)). unfold u_peek. split; [by apply (sh_peek_spec LW)|].
    intros v. apply (value_in LW). by apply (inv_ukeys LW).
  - by apply len_exact.
  - by apply weight_exact.
  - rewrite <-Hc3. by apply inv_ghosts.
Qed.
Print Assumptions C53_clones_are_sound.

(* Every call on such a cache does what it does on any other cache with these items (does, ApiSpec.v),
   and fails only where that is documented: never because the cache is a clone. *)
Theorem C53_calls_on_clones : ∀ (P : Params), Lawful P → ∀ budget ghosts cap (h : list (cmd P)) s m,
  descends budget ghosts cap h s →
  match exec s m with
  | Ok (s', o) => does cap budget (sh_iter s) m o (sh_iter s')
  | Fail SlabFull => (two32 ≤ N.of_nat (length h) + 2)%N
  | Fail WeightOvf => may_overflow cap budget (sh_iter s) m
  | Fail _ => False
  end.
Proof.
  intros P LW budget ghosts cap h s m H. destruct (exec s m) as [[s' o]|f] eqn:He; [by eapply (descends_does LW)|].
  destruct (descends_inv LW _ _ _ _ _ H) as (HI & Hc & Hu). pose proof (exec_spec LW s m HI) as Hx. rewrite He in Hx.
  unfold cfg in Hc. injection Hc as Hc1 Hc2 _. simpl in Hx. unfold fails in Hx. rewrite Hc1, Hc2 in Hx. destruct f; try done. lia.
Qed.
Print Assumptions C53_calls_on_clones.

(* The items of such a cache that are not pinned stay within capacity(). *)
Theorem C53_clones_within_capacity : ∀ (P : Params), Lawful P → ∀ budget ghosts cap (h : list (cmd P)) s,
  (budget ≤ cap)%N → Forall no_growth_unpin h → descends budget ghosts cap h s → (uwsum (sh_iter s) ≤ cap)%N.
Proof. intros P LW budget ghosts cap h s Hb Hg H. by eapply (descends_uwsum LW). Qed.
Print Assumptions C53_clones_within_capacity.

(* An exact clone, whose keys and values are those of the original and whose table was copied bucket
   by bucket, answers every later sequence of calls as the original would: same results and events,
   same items left, same statistics, and it panics where the original panics. *)
Theorem C53_clones_answer_alike : ∀ (P : Params), history_blind P → ∀ (s : shard P) T (h : list (cmd P)),
  tpairs T = tpairs (sh_map s) →
  match run (sh_clone (λ k, k) (λ v, v) T s) h, run s h with
  | Ok (s1, os1), Ok (s2, os2) =>
      os1 = os2 ∧ sh_iter s1 = sh_iter s2 ∧ sh_len s1 = sh_len s2 ∧ sh_weight s1 = sh_weight s2 ∧
      sh_capacity s1 = sh_capacity s2 ∧ sh_hits s1 = sh_hits s2 ∧ sh_misses s1 = sh_misses s2 ∧ storage s1 = storage s2
  | Fail f1, Fail f2 => f1 = f2
  | _, _ => False
  end.
Proof.
  intros P OR s T h HT. rewrite (clone_id T s HT).
  pose proof (shf_run (tepoch T) 0%N 0%N 0%N OR (set_map s (Table (tpairs (sh_map s)) 0)) h) as R1.
  pose proof (shf_run (tepoch (sh_map s)) 0%N 0%N 0%N OR (set_map s (Table (tpairs (sh_map s)) 0)) h) as R2.
  unfold shf in R1, R2. rewrite <-(anew_epoch s) in R2. rewrite R1, R2.
  destruct (run (set_map s _) h) as [[s0 os]|f]; [|done]. split; [done|].
  split; [trans (sh_iter s0); [apply shf_iter|symmetry; apply shf_iter]|]. repeat (split; [done|]).
  unfold storage. cbn [sh_shard sh_ents]. unfold shf, sh_slab. cbn [ents]. by rewrite !map_length.
Qed.
Print Assumptions C53_clones_answer_alike.

(* A cache with pinned items, ghosts and an abandoned load; and a clone of it whose table lists its
   buckets in another order, which evicts later on. *)
Definition with_load : list (cmd H) := mixed ++ [CRefOrGuard (P:=H) 0%N 20%N (GForget (P:=H))].
Definition original : shard H := state_of 10 3 14 with_load.
Definition cloned : shard H := sh_clone (λ k, k) (λ v, v) (Table (reverse (tpairs (sh_map original))) 0) original.
Lemma run_descends : ∀ (P : Params) budget ghosts cap (h h0 : list (cmd P)) s0 s1 os,
  descends budget ghosts cap h0 s0 → run s0 h = Ok (s1, os) → descends budget ghosts cap (h0 ++ h) s1.
Proof.
  intros P budget ghosts cap h. induction h as [|m h IH]; intros h0 s0 s1 os H0 E; simpl in E.
  - injection E as <- <-. by rewrite app_nil_r.
  - destruct (exec s0 m) as [[s2 o]|] eqn:E1; simpl in E; [|done]. destruct (run s2 h) as [[s3 os3]|] eqn:E2; simpl in E; [|done].
    injection E as <- <-. rewrite cons_middle, app_assoc. eapply IH; [|exact E2]. by eapply de_call.
Qed.
Example C53_example : descends 10 3 14 with_load cloned ∧ sh_iter cloned = [(3, 0); (11, 5); (100, 5)]%N ∧
  match run cloned [ins (P:=H) 0%N 30%N 5%N; ins (P:=H) 0%N 31%N 5%N; ins (P:=H) 0%N 20%N 4%N] with
  | Ok (s2, _) => sh_iter s2 = [(3, 0); (31, 5); (100, 5); (20, 4)]%N | Fail _ => False end.
Proof.
  split; [|split; [vm_compute; reflexivity|vm_compute; reflexivity]].
  assert (run (sh_new 10 3 14) with_load = Ok (original, outs_of 10 3 14 with_load)) as E by (vm_compute; reflexivity).
  apply (de_clone _ _ _ _ original _ (λ k, k) (λ v, v)).
  - exact (run_descends H 10 3 14 with_load [] _ _ _ (de_new 10 3 14) E).
  - split; [|split]; [intros k; exact (N.eqb_refl k)|intros k v; reflexivity|intros k v; reflexivity].
  - exists (Table (reverse (tpairs (sh_map original))) 0). split; [cbn [tpairs]; apply reverse_Permutation|reflexivity].
Qed.
