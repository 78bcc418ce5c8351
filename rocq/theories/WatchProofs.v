(* Statistics and observations of the sync cache in use. *)
From stdpp Require Import prelude list functions.
From Verif Require Export ConcStats ConcEnd ConcPropSpec.

Section watchproofs.
Context {P : Params} (LW : Lawful P) (PI : ptr_ids P = true).
Context {budget ghosts cap e : N}.
Notation K := (K P). Notation V := (V P). Notation RS := (RS P).
Notation shard := (shard P). Notation sys := (sys P). Notation pc := (pc P). Notation agent := (agent P).
Notation CInv := (CInv budget ghosts cap e). Notation Reach := (@Reach P (full P) budget ghosts cap e).
Implicit Types (s : shard) (k : K) (v : V) (rs : RS) (p : plh) (a b : nat) (l : loc) (j : nat) (y : sys) (x : pc) (ag : agent).
Implicit Types (g : list (nat * cevent P)) (h : list (cevent P)).

Lemma cstep_grows dbg y lb y' j s : CInv y → cstep dbg y lb = Some (Ok y') → shard_at y j = Some s →
  ∃ s', shard_at y' j = Some s' ∧ (sh_hits s ≤ sh_hits s')%N ∧ (sh_misses s ≤ sh_misses s')%N.
Proof.
  intros HC Hs Hj. assert (y_cache y' = y_cache y → ∃ s', shard_at y' j = Some s' ∧ (sh_hits s ≤ sh_hits s')%N ∧ (sh_misses s ≤ sh_misses s')%N) as Hsame.
  { intros E. exists s. split; [unfold shard_at; by rewrite E|lia]. }
  destruct lb as [c|a|a|d|a wk|a|a rs v wl|a]; simpl in Hs.
  - destruct (first_pc y c) as [[x|]|] eqn:E; try done. cbn in Hs. injection Hs as <-. by apply Hsame.
  - unfold go in Hs. destruct (y_agents y !! a) as [ag|] eqn:Ha; [|done]. destruct (wants a (a_pc ag)) as [h|] eqn:Hw.
    + destruct (free y h) eqn:Hf; [|done]. injection Hs as <-. by apply Hsame.
    + destruct (act_pays LW PI _ _ _ _ _ HC Ha Hw Hs) as (x' & es & us & M & Hp). destruct (Hp _ _ Hj) as (s' & ? & _ & _ & ?). eauto.
  - destruct (y_agents y !! a) as [ag|] eqn:Ha; [|done]. simpl in Hs. destruct (a_pc ag) eqn:Hpc; try done. injection Hs as <-. by apply Hsame.
  - injection Hs as <-. by apply Hsame.
  - destruct (y_agents y !! a) as [ag|] eqn:Ha; [|done]. simpl in Hs. destruct (a_pc ag) eqn:Hpc; try done; injection Hs as <-; by apply Hsame.
  - destruct (y_agents y !! a) as [ag|] eqn:Ha; [|done]. simpl in Hs. destruct (a_pc ag) eqn:Hpc; try done; injection Hs as <-; by apply Hsame.
  - destruct (y_agents y !! a) as [ag|] eqn:Ha; [|done]. simpl in Hs. destruct (a_pc ag) eqn:Hpc; try done; injection Hs as <-; by apply Hsame.
  - destruct (y_agents y !! a) as [ag|] eqn:Ha; [|done]. simpl in Hs. destruct (a_pc ag) eqn:Hpc; try done; injection Hs as <-; by apply Hsame.
Qed.
Lemma balanced_all dbg ls y : execution dbg budget ghosts cap e ls y → balanced y.
Proof.
  unfold execution. intros H. remember (sys_new budget ghosts cap e) as y0. induction H as [|y0 ls y1 lb y2 H IH Hs].
  - subst. intros j s Hj. unfold shard_at in Hj. simpl in Hj. apply lookup_replicate in Hj as [-> _]. done.
  - subst y0. eapply (cstep_balanced LW PI); [|done|by apply IH]. apply (rc_c _ (reach LW PI _ _ _ H)).
Qed.
Lemma steps_grows dbg y ls y' : Reach y → steps dbg y ls y' → ∀ j s, shard_at y j = Some s →
  ∃ s', shard_at y' j = Some s' ∧ (sh_hits s ≤ sh_hits s')%N ∧ (sh_misses s ≤ sh_misses s')%N.
Proof.
  intros HR H. induction H as [y|y ls y1 lb y2 H IH Hs]; intros j s Hj.
  - exists s. split; [done|lia].
  - destruct (IH HR j s Hj) as (s1 & H1 & L1 & L2). pose proof (reach_steps LW PI _ _ _ _ HR H) as HR1.
    destruct (cstep_grows _ _ _ _ _ _ (rc_c _ HR1) Hs H1) as (s2 & H2 & L3 & L4). exists s2. split; [done|lia].
Qed.
Lemma steps_trans dbg y ls y1 ls' y2 : steps dbg y ls y1 → steps dbg y1 ls' y2 → steps dbg y (ls ++ ls') y2.
Proof.
  intros H1 H2. induction H2 as [|y1 ls' y3 lb y2 H2 IH Hs]; [by rewrite app_nil_r|]. rewrite app_assoc. econstructor; [by apply IH|done].
Qed.

(* ---- sums ---- *)
Lemma sumN_app ns ns' : sumN (ns ++ ns') = (sumN ns + sumN ns')%N.
Proof. induction ns as [|n ns IH]; simpl; [done|]. rewrite IH. lia. Qed.
Lemma sumN_plus {A} (f g : A → N) ns : sumN (map (λ i, f i + g i)%N ns) = (sumN (map f ns) + sumN (map g ns))%N.
Proof. induction ns as [|n ns IH]; simpl; [done|]. rewrite IH. lia. Qed.
Lemma sumN_zero {A} (f : A → N) ns : (∀ i, i ∈ ns → f i = 0%N) → sumN (map f ns) = 0%N.
Proof. induction ns as [|n ns IH]; intros H; simpl; [done|]. rewrite H by left. rewrite IH; [done|]. intros; apply H; by right. Qed.
Lemma sumN_one i n (c : N) (f : nat → N) : i < n → f i = c → (∀ i', i' ≠ i → f i' = 0%N) → sumN (map f (seq 0 n)) = c.
Proof.
  intros Hi Hf Ho. replace n with (i + S (n - i - 1)) by lia. rewrite seq_app, map_app, sumN_app. simpl.
  rewrite !sumN_zero; [rewrite Hf; lia|..]; intros i' H'; apply Ho; apply elem_of_seq in H'; lia.
Qed.
Lemma sumN_le ns ns' : Forall2 N.le ns ns' → (sumN ns ≤ sumN ns')%N.
Proof. induction 1; simpl; lia. Qed.
Lemma sumN_ext {A} (f g : A → N) ns : (∀ i, i ∈ ns → f i = g i) → sumN (map f ns) = sumN (map g ns).
Proof. induction ns as [|n ns IH]; intros H; simpl; [done|]. rewrite H by left. rewrite IH; [done|]. intros; apply H; by right. Qed.
Lemma sum64_Ok ns n : sum64 ns = Ok n → n = sumN ns.
Proof. rewrite sum64_eq. destruct (foldr N.add 0%N ns <? two64)%N; [|done]. by intros [= <-]. Qed.

(* ---- by shard, by agent ---- *)
Definition ev_hit (ev : cevent P) : N := match ev with EvSec _ o r => b2n (is_hit (o, r)) | _ => 0 end.
Definition ev_miss (ev : cevent P) : N := match ev with EvSec _ o r => b2n (is_miss (o, r)) | _ => 0 end.
Definition in_log (f : cevent P → N) g : N := sumN (map (λ z, f z.2) g).
Definition in_hist (f : cevent P → N) h : N := sumN (map f h).
Lemma by_shard (f : cevent P → N) (c : list (sop P * sres P) → N) (n : nat) g :
  (c [] = 0%N) → (∀ z (h : list (sop P * sres P)), c (z :: h) = (c [z] + c h)%N) → (∀ j o r, f (EvSec j o r) = c [(o, r)]) → (∀ ev, no_sec ev = true → f ev = 0%N) →
  (∀ a j o r, (a, EvSec j o r) ∈ g → f (EvSec j o r) ≠ 0%N → j < n) →
  sumN (map (λ j, c (sections j g)) (seq 0 n)) = in_log f g.
Proof.
  intros C0 Cc Cs Cn. induction g as [|[a ev] g IH]; intros Hj.
  - apply sumN_zero. intros i _. apply C0.
  - unfold in_log. simpl. fold (in_log f g). rewrite <-IH by (intros; eapply Hj; [by right|done]). clear IH.
    assert (∀ j, c (sections j ((a, ev) :: g)) = (c (sec_of j (a, ev)) + c (sections j g))%N) as Hc.
    { intros j. rewrite sections_cons. unfold sec_of. simpl. destruct ev; simpl; try (rewrite C0; lia). case_decide; simpl; [apply Cc|rewrite C0; lia]. }
    rewrite (sumN_ext _ _ _ (λ j _, Hc j)), sumN_plus. f_equal. destruct ev as [c0|j o r|l|l v|l b|l|b|l|r]; try (rewrite Cn by done; apply sumN_zero; intros i _; apply C0).
    destruct (decide (f (EvSec j o r) = 0%N)) as [E|E].
    + rewrite E. apply sumN_zero. intros i _. unfold sec_of. simpl. case_decide; [by rewrite <-(Cs j)|apply C0].
    + apply (sumN_one j); [eapply Hj; [left|done]|unfold sec_of; simpl; rewrite decide_True by done; by rewrite <-(Cs j)|].
      intros i Hi. unfold sec_of; simpl. rewrite decide_False by done. apply C0.
Qed.
Lemma by_agent (f : cevent P → N) (n : nat) g : (∀ b, f (EvNote b) = 0%N) → (∀ a ev, (a, ev) ∈ g → a < n) →
  sumN (map (λ a, in_hist f (hist g a)) (seq 0 n)) = in_log f g.
Proof.
  intros Hn. induction g as [|[a ev] g IH]; intros Hj.
  - apply sumN_zero. done.
  - unfold in_log. simpl. fold (in_log f g). rewrite <-IH by (intros; eapply Hj; by right). clear IH.
    assert (∀ b, in_hist f (hist ((a, ev) :: g) b) = (in_hist f (mine b (a, ev)) + in_hist f (hist g b))%N) as Hc.
    { intros b. unfold hist. simpl. unfold in_hist. by rewrite map_app, sumN_app. }
    rewrite (sumN_ext _ _ _ (λ j _, Hc j)), sumN_plus. f_equal.
    apply (sumN_one a); [eapply Hj; left|..].
    + unfold mine. simpl. rewrite decide_True by done. unfold in_hist. destruct ev; simpl; try lia. by rewrite Hn.
    + intros i Hi. unfold mine. simpl. by rewrite decide_False.
Qed.
Lemma get_answer y a j k o : Reach y → (a, EvSec j (OCmd (CGet k)) (SO o)) ∈ y_log y → ∃ z, o = plain (RVal z).
Proof.
  intros HR Hin. destruct (log_fits _ _ _ HR Hin eq_refl) as (ag & _ & _ & _ & Hj). simpl in Hj.
  assert (j < length (sc_shards (y_cache y))) as Hlt.
  { subst j. rewrite (ci_len _ _ _ _ _ (rc_c _ HR)), (ci_mask _ _ _ _ _ (rc_c _ HR)). apply shard_idx_lt. }
  destruct (legal_at y j HR Hlt) as (s & d & _ & HL & _). apply elem_of_list_split in Hin as (g1 & g2 & E). rewrite E in HL.
  rewrite sections_app, sections_cons in HL. unfold sec_of at 1 in HL. simpl in HL. rewrite decide_True in HL by done.
  apply legal_mid in HL as (d0 & d1 & HL & Hs & _). simpl in Hs. destruct d0, d1. simpl in Hs. destruct Hs as (_ & Hd & _). simpl in Hd. naive_solver.
Qed.
Lemma hits_in_log y : Reach y → sumN (map (λ j, n_hits (sections j (y_log y))) (seq 0 (length (sc_shards (y_cache y))))) = in_log ev_hit (y_log y) ∧
  sumN (map (λ j, n_misses (sections j (y_log y))) (seq 0 (length (sc_shards (y_cache y))))) = in_log ev_miss (y_log y).
Proof.
  intros HR. assert (∀ a j o r, (a, EvSec j o r) ∈ y_log y → is_hit (o, r) = true ∨ is_miss (o, r) = true → j < length (sc_shards (y_cache y))) as Hlt.
  { intros a j o r Hin Ho. destruct (log_fits _ _ _ HR Hin eq_refl) as (ag & _ & Hf).
    assert (∃ k, j = shard_idx (sc_mask (y_cache y)) k) as [k ->].
    { destruct o as [m|k|rs id v wl|id]; simpl in Hf; [|naive_solver|by destruct Ho|by destruct Ho].
      destruct m; simpl in Ho; try by destruct Ho. simpl in Hf. naive_solver. }
    rewrite (ci_len _ _ _ _ _ (rc_c _ HR)), (ci_mask _ _ _ _ _ (rc_c _ HR)). apply shard_idx_lt. }
  split; apply by_shard; try done.
  - intros z h. change (z :: h) with ([z] ++ h). apply n_hits_app.
  - intros. simpl. by rewrite n_hits_one.
  - by intros [].
  - intros a j o r Hin Hf. eapply Hlt; [done|]. left. change (b2n (is_hit (o, r)) ≠ 0%N) in Hf. by destruct (is_hit (o, r)).
  - intros z h. change (z :: h) with ([z] ++ h). apply n_misses_app.
  - intros. simpl. by rewrite n_misses_one.
  - by intros [].
  - intros a j o r Hin Hf. eapply Hlt; [done|]. right. change (b2n (is_miss (o, r)) ≠ 0%N) in Hf. by destruct (is_miss (o, r)).
Qed.

(* ---- what a call counts ---- *)
Lemma in_hist_app (f : cevent P → N) h h' : in_hist f (h ++ h') = (in_hist f h + in_hist f h')%N.
Proof. unfold in_hist. by rewrite map_app, sumN_app. Qed.
Lemma guarded_counts j c k id h : guarded j c k id h → (in_hist ev_hit h, in_hist ev_miss h) = (0, 2)%N ∨ (in_hist ev_hit h, in_hist ev_miss h) = (1, 1)%N.
Proof. intros [|]; [by left|by right]. Qed.
Lemma dropped_counts j id h : dropped j id h → in_hist ev_hit h = 0%N ∧ in_hist ev_miss h = 0%N.
Proof. by intros []. Qed.
Lemma other_counts (m : cmd P) j (r : sres P) : (∀ k, m ≠ CGet k) → ev_hit (EvSec j (OCmd m) r) = 0%N ∧ ev_miss (EvSec j (OCmd m) r) = 0%N.
Proof. intros H. simpl. destruct m; try done. by destruct (H k). Qed.
Lemma is_get (m : cmd P) : (∃ k, m = CGet k) ∨ ∀ k, m ≠ CGet k.
Proof. destruct m; try (by right); left; eauto. Qed.
Lemma counts_eq (c : call P) (r : ret P) (h m h' m' : N) : counts_as c r h' m' → h = h' → m = m' → counts_as c r h m.
Proof. by intros ? -> ->. Qed.
Lemma life_counts mask n c h r : life mask n c h r → (∀ j k o, EvSec j (OCmd (CGet k)) (SO o) ∈ h → ∃ z, o = plain (RVal z)) →
  counts_as c r (in_hist ev_hit h) (in_hist ev_miss h).
Proof.
  intros HL Hg. destruct HL as [m k o Hk|m Hk|c k v Hk|c k v Hk|c k id v Hk|c k id v Hk|k to id|k|k id|k id h Hd|c k id h rs v wl o Hk Hh|c k id h rs v wl Hk Hh|c k id h h' Hk Hh Hd].
  - destruct (is_get m) as [[k' ->]|Hm].
    + destruct (Hg _ _ _ (elem_of_list_further _ _ _ (elem_of_list_here _ _))) as [[v|] ->]; constructor.
    + eapply counts_eq; [by apply ca_other|..]; unfold in_hist; cbn [map sumN foldr];
        destruct (other_counts m (shard_idx mask k) (SO o) Hm) as [E1 E2]; rewrite ?E1, ?E2; done.
  - assert (∀ k, m ≠ CGet k) as Hm by (intros k ->; done).
    eapply counts_eq; [by apply ca_other|..]; unfold in_hist; cbn [map sumN foldr]; rewrite map_map; fold sumN;
      (etrans; [apply (f_equal (λ z, 0 + z)%N)|]; [apply sumN_zero; intros i _; by apply other_counts|done]).
  - eapply counts_eq; [by eapply ca_cached|done|done].
  - eapply counts_eq; [by eapply ca_cached_late|done|done].
  - eapply counts_eq; [by eapply ca_given|done|done].
  - eapply counts_eq; [by eapply ca_given|done|done].
  - eapply counts_eq; [by eapply ca_timeout|done|done].
  - eapply counts_eq; [by eapply ca_unpolled|done|done].
  - eapply counts_eq; [by eapply ca_cancel|done|done].
  - rewrite !in_hist_app. destruct (dropped_counts _ _ _ Hd) as [-> ->]. eapply counts_eq; [by eapply (ca_took_over _ k); [|left]|done|done].
  - rewrite !in_hist_app. destruct (guarded_counts _ _ _ _ _ Hh) as [[= -> ->]|[= -> ->]].
    + eapply counts_eq; [by eapply (ca_started _ k); [|eauto]|done|done].
    + eapply counts_eq; [by eapply (ca_took_over _ k); [|eauto]|done|done].
  - rewrite !in_hist_app. destruct (guarded_counts _ _ _ _ _ Hh) as [[= -> ->]|[= -> ->]].
    + eapply counts_eq; [by eapply (ca_started _ k); [|eauto]|done|done].
    + eapply counts_eq; [by eapply (ca_took_over _ k); [|eauto]|done|done].
  - rewrite !in_hist_app. destruct (dropped_counts _ _ _ Hd) as [-> ->]. destruct (guarded_counts _ _ _ _ _ Hh) as [[= -> ->]|[= -> ->]].
    + eapply counts_eq; [by eapply (ca_started _ k); [|eauto]|done|done].
    + eapply counts_eq; [by eapply (ca_took_over _ k); [|eauto]|done|done].
Qed.
Lemma map_shards {A} (f : shard → A) y (d : nat → A) : (∀ j s, shard_at y j = Some s → d j = f s) →
  map f (sc_shards (y_cache y)) = map d (seq 0 (length (sc_shards (y_cache y)))).
Proof.
  intros H. apply list_eq. intros i. rewrite !list_lookup_fmap. destruct (sc_shards (y_cache y) !! i) as [s|] eqn:E.
  - simpl. rewrite (lookup_seq_lt _ _ _ (lookup_lt_Some _ _ _ E)). simpl. f_equal. symmetry. by apply H.
  - apply lookup_ge_None in E. simpl. rewrite lookup_seq_ge by done. done.
Qed.
Lemma idle_none (f : pc → bool) y : (∀ a ag, y_agents y !! a = Some ag → f (a_pc ag) = false) → uncounted f y = 0%N.
Proof.
  intros H. unfold uncounted. assert (List.filter (λ ag, f (a_pc ag)) (y_agents y) = []) as ->; [|done].
  assert (∀ ag, ag ∈ y_agents y → f (a_pc ag) = false) as H' by (intros ag [a Ha]%elem_of_list_lookup; by eapply H). clear H.
  induction (y_agents y) as [|ag ags IH]; [done|]. simpl. rewrite (H' ag) by left. apply IH. intros; apply H'. by right.
Qed.
Lemma all_counted y : Reach y → balanced y → (∀ a, a < length (y_agents y) → returned (y_log y) a) →
  total_hits y = in_log ev_hit (y_log y) ∧ total_misses y = in_log ev_miss (y_log y).
Proof.
  intros HR Hb Hr. assert (∀ a ag, y_agents y !! a = Some ag → ∃ r, a_pc ag = ADone r) as Hd.
  { intros a ag Ha. eapply (done_returned y a ag HR Ha), Hr. by eapply lookup_lt_Some. }
  destruct (hits_in_log y HR) as [<- <-]. unfold total_hits, total_misses. split; f_equal.
  - apply map_shards. intros j s Hj. destruct (Hb j s Hj) as [<- _]. rewrite idle_none; [lia|].
    intros a ag Ha. by destruct (Hd a ag Ha) as [r ->].
  - apply map_shards. intros j s Hj. destruct (Hb j s Hj) as [_ <-]. rewrite idle_none; [lia|].
    intros a ag Ha. by destruct (Hd a ag Ha) as [r ->].
Qed.
Lemma every_call y : Reach y → balanced y → (∀ a, a < length (y_agents y) → returned (y_log y) a) →
  ∃ ns : list (N * N), Forall2 (λ ag n, ∃ r, a_pc ag = ADone r ∧ counts_as (a_call ag) r n.1 n.2) (y_agents y) ns ∧
    total_hits y = sumN (map fst ns) ∧ total_misses y = sumN (map snd ns).
Proof.
  intros HR Hb Hr. destruct (all_counted y HR Hb Hr) as [-> ->].
  assert (∀ (a : nat) (ev : cevent P), (a, ev) ∈ y_log y → a < length (y_agents y)) as Hlt by (intros a ev Hin; by eapply (hi_log _ (rc_h _ HR))).
  rewrite <-!(by_agent _ (length (y_agents y))) by done.
  exists (map (λ a, (in_hist ev_hit (hist (y_log y) a), in_hist ev_miss (hist (y_log y) a))) (seq 0 (length (y_agents y)))).
  split; [|split; by rewrite map_map]. apply Forall2_lookup. intros a. destruct (y_agents y !! a) as [ag|] eqn:Ha.
  - rewrite list_lookup_fmap, lookup_seq_lt by (by eapply lookup_lt_Some). simpl. constructor. simpl.
    destruct (returned_done y a HR (Hr a (lookup_lt_Some _ _ _ Ha))) as (ag' & r & Ha' & Hpc & Hret & h & HL & Hh).
    rewrite Ha in Ha'. injection Ha' as <-. exists r. split; [done|]. rewrite Hh, !in_hist_app.
    eapply counts_eq; [eapply life_counts; [exact HL|]|unfold in_hist; simpl; lia|unfold in_hist; simpl; lia].
    intros j k o Hin. eapply (get_answer y a j k o HR). 
    assert (EvSec j (OCmd (CGet k)) (SO o) ∈ hist (y_log y) a) as Hin' by (rewrite Hh; apply elem_of_app; by left).
    by apply (hist_in _ _ (EvSec j (OCmd (CGet k)) (SO o)) eq_refl) in Hin'.
  - rewrite list_lookup_fmap, lookup_seq_ge by (by apply lookup_ge_None). constructor.
Qed.

(* ---- observers ---- *)
Lemma watch_steps {A} dbg (f : shard → A) more j y vs ls y' : watch dbg f more j y vs ls y' → steps dbg y ls y'.
Proof.
  induction 1 as [j y Hj|j y ls y1 s Hs Hj Hf Hm|j y ls y1 s vs ls' y2 Hs Hj Hf Hm H IH]; [constructor|done|by eapply steps_trans].
Qed.
Lemma len_all y : Reach y → length (sc_shards (y_cache y)) = N.to_nat (2 ^ e).
Proof. intros HR. apply (ci_len _ _ _ _ _ (rc_c _ HR)). Qed.
(* the readings, each made at some moment *)
Lemma watch_reads {A} dbg (f : shard → A) more j y vs ls y' : Reach y → watch dbg f more j y vs ls y' →
  (∀ i z, vs !! i = Some z → ∃ ls y1 s ls', steps dbg y ls y1 ∧ steps dbg y1 ls' y' ∧ shard_at y1 (j + i) = Some s ∧ z = f s) ∧
  ((length vs = N.to_nat (2 ^ e) - j) ∨ ∃ z, z ∈ vs ∧ more z = false).
Proof.
  intros HR H. induction H as [j y Hj|j y ls y1 s Hs Hj Hf Hm|j y ls y1 s vs ls' y2 Hs Hj Hf Hm H IH].
  - split; [done|]. left. rewrite len_all in Hj by done. simpl. lia.
  - split; [|right; exists (f s); split; [left|done]]. intros i z Hi. destruct i; [|done]. injection Hi as <-.
    exists ls, y1, s, []. rewrite Nat.add_0_r. split_and!; try done. constructor.
  - pose proof (reach_steps LW PI _ _ _ _ HR Hs) as HR1. destruct (IH HR1) as [IH1 IH2]. split.
    + intros i z Hi. destruct i as [|i].
      * injection Hi as <-. pose proof (watch_steps _ _ _ _ _ _ _ _ H) as H'. exists ls, y1, s, ls'. by rewrite Nat.add_0_r.
      * destruct (IH1 i z Hi) as (l1 & y3 & s3 & l2 & H1 & H2 & H3 & ->). exists (ls ++ l1), y3, s3, l2.
        split_and!; try done; [by eapply steps_trans|]. by rewrite <-plus_n_Sm.
    + destruct IH2 as [IH2|(z & Hz & Hz')]; [left|right; exists z; split; [by right|done]]. apply lookup_lt_Some in Hj. rewrite len_all in Hj by done. simpl. lia.
Qed.
(* counters that only grow *)
Lemma watch_between dbg (f : shard → N) y vs ls y' :
  (∀ y ls y' j s, Reach y → steps dbg y ls y' → shard_at y j = Some s → ∃ s', shard_at y' j = Some s' ∧ (f s ≤ f s')%N) →
  Reach y → watch dbg f all 0 y vs ls y' →
  (sumN (map f (sc_shards (y_cache y))) ≤ sumN vs)%N ∧ (sumN vs ≤ sumN (map f (sc_shards (y_cache y'))))%N.
Proof.
  intros Hmono HR H. pose proof (watch_steps _ _ _ _ _ _ _ _ H) as Hls. pose proof (reach_steps LW PI _ _ _ _ HR Hls) as HR'.
  destruct (watch_reads _ _ _ _ _ _ _ _ HR H) as [H1 [H2|(z & _ & ?)]]; [|done]. simpl in H1. rewrite Nat.sub_0_r in H2.
  split; apply sumN_le, Forall2_same_length_lookup_2; try (by rewrite map_length, len_all).
  - intros i x z Hx Hz. destruct (H1 i z Hz) as (l1 & y1 & s1 & l2 & S1 & S2 & Hs1 & ->).
    apply list_lookup_fmap_inv in Hx as (s & -> & Hs). destruct (Hmono _ _ _ _ _ HR S1 Hs) as (s' & Hs' & Hle). rewrite Hs1 in Hs'. by injection Hs' as <-.
  - intros i x z Hx Hz. destruct (H1 i x Hx) as (l1 & y1 & s1 & l2 & S1 & S2 & Hs1 & ->).
    apply list_lookup_fmap_inv in Hz as (s & -> & Hs). pose proof (reach_steps LW PI _ _ _ _ HR S1) as HR1.
    destruct (Hmono _ _ _ _ _ HR1 S2 Hs1) as (s' & Hs' & Hle). unfold shard_at in Hs'. rewrite Hs in Hs'. by injection Hs' as <-.
Qed.
Lemma hits_between dbg y n y' : Reach y → sees_hits dbg y (Ok n) y' → (total_hits y ≤ n ≤ total_hits y')%N.
Proof.
  intros HR (vs & ls & H & Hn). symmetry in Hn. apply sum64_Ok in Hn as ->.
  refine (watch_between _ _ _ _ _ _ _ HR H). intros y0 ls0 y1 j s HR0 Hs Hj. destruct (steps_grows _ _ _ _ HR0 Hs _ _ Hj) as (s' & ? & ? & ?). eauto.
Qed.
Lemma misses_between dbg y n y' : Reach y → sees_misses dbg y (Ok n) y' → (total_misses y ≤ n ≤ total_misses y')%N.
Proof.
  intros HR (vs & ls & H & Hn). symmetry in Hn. apply sum64_Ok in Hn as ->.
  refine (watch_between _ _ _ _ _ _ _ HR H). intros y0 ls0 y1 j s HR0 Hs Hj. destruct (steps_grows _ _ _ _ HR0 Hs _ _ Hj) as (s' & ? & ? & ?). eauto.
Qed.
Lemma totals_grow dbg y ls y' : Reach y → steps dbg y ls y' → (total_hits y ≤ total_hits y')%N ∧ (total_misses y ≤ total_misses y')%N.
Proof.
  intros HR Hs. pose proof (reach_steps LW PI _ _ _ _ HR Hs) as HR'. unfold total_hits, total_misses.
  split; apply sumN_le, Forall2_same_length_lookup_2; try (by rewrite !map_length, !len_all); intros i x z Hx Hz;
    apply list_lookup_fmap_inv in Hx as (s & -> & Hx); apply list_lookup_fmap_inv in Hz as (s' & -> & Hz);
    destruct (steps_grows _ _ _ _ HR Hs _ _ Hx) as (s1 & H1 & H2 & H3); unfold shard_at in H1; rewrite Hz in H1; by injection H1 as <-.
Qed.
(* what never changes *)
Lemma capacity_seen dbg y r y' : Reach y → sees_capacity dbg y r y' → r = sum64 (replicate (N.to_nat (2 ^ e)) cap).
Proof.
  intros HR (vs & ls & H & ->). destruct (watch_reads _ _ _ _ _ _ _ _ HR H) as [H1 [H2|(z & _ & ?)]]; [|done]. f_equal.
  symmetry. apply replicate_as_elem_of. split; [lia|]. intros z [i Hz]%elem_of_list_lookup. destruct (H1 i z Hz) as (l1 & y1 & s1 & l2 & S1 & _ & Hs1 & ->).
  pose proof (reach_steps LW PI _ _ _ _ HR S1) as HR1. destruct (ci_inv _ _ _ _ _ (rc_c _ HR1) _ _ Hs1) as [_ Hc]. unfold cfg in Hc. by injection Hc.
Qed.
Lemma weight_seen dbg y r y' : Reach y → (∀ k v, pinned P k v = false) → (budget ≤ cap)%N → (2 ^ e * cap < two64)%N →
  sees_weight dbg y r y' → ∃ w, r = Ok w ∧ (w ≤ 2 ^ e * cap)%N.
Proof.
  intros HR Hp Hb Hc (vs & ls & H & ->). destruct (watch_reads _ _ _ _ _ _ _ _ HR H) as [H1 H2].
  assert (∀ z, z ∈ vs → ∃ w, z = Ok w ∧ (w ≤ cap)%N) as Hall.
  { intros z [i Hz]%elem_of_list_lookup. destruct (H1 i z Hz) as (l1 & y1 & s1 & l2 & S1 & _ & Hs1 & ->).
    pose proof (reach_steps LW PI _ _ _ _ HR S1) as HR1. pose proof (reach_sound LW _ _ _ HR1 Hs1) as HS.
    pose proof (so_bound _ _ _ _ HS Hb) as Hu. rewrite (uwsum_none _ Hp) in Hu. exists (wsum (sh_iter s1)). split; [|done].
    rewrite (so_weight _ _ _ _ HS). destruct (N.ltb_spec (wsum (sh_iter s1)) two64) as [|Hge]; [done|exfalso].
    assert (1 ≤ 2 ^ e)%N by (pose proof (N.pow_nonzero 2 e); lia). nia. }
  destruct H2 as [H2|(z & Hz & Hz')]; [|destruct (Hall z Hz) as (w & -> & _); done]. clear H H1.
  assert (∃ ws, seq_res vs = Ok ws ∧ (sumN ws ≤ N.of_nat (length vs) * cap)%N) as (ws & -> & Hw).
  { clear H2. induction vs as [|z vs IH]; [exists []; split; [done|simpl; lia]|].
    destruct (Hall z) as (w & -> & Hw); [left|]. destruct IH as (ws & E & Hws); [intros; apply Hall; by right|].
    exists (w :: ws). cbn [seq_res]. cbn [rbind]. rewrite E. split; [done|]. simpl sumN. cbn [length]. lia. }
  rewrite H2, Nat.sub_0_r, N2Nat.id in Hw. exists (sumN ws). cbn [rbind]. rewrite sum64_eq. fold (sumN ws).
  destruct (N.ltb_spec (sumN ws) two64); [done|lia].
Qed.
(* a cache that nobody writes to *)
Lemma log_prefix dbg y ls y' : Reach y → steps dbg y ls y' → ∃ es, y_log y' = y_log y ++ es.
Proof.
  intros HR H. induction H as [y|y ls y1 lb y2 H IH Hs]; [exists []; by rewrite app_nil_r|].
  destruct (IH HR) as [es E]. pose proof (reach_steps LW PI _ _ _ _ HR H) as HR1.
  destruct (cstep_exact LW PI _ _ _ _ (rc_c _ HR1) Hs) as (es2 & El & _). exists (es ++ es2). by rewrite El, E, app_assoc.
Qed.
Lemma quiet_items dbg y ls y' es : Reach y → steps dbg y ls y' → y_log y' = y_log y ++ es → (∀ j, forallb only_reads (sections j es) = true) →
  ∀ j s, shard_at y j = Some s → ∃ s', shard_at y' j = Some s' ∧ sh_iter s' ≡ₚ sh_iter s.
Proof.
  intros HR H. revert es. induction H as [y|y ls y1 lb y2 H IH Hs]; intros es Hes Hq j s Hj; [eauto|].
  pose proof (reach_steps LW PI _ _ _ _ HR H) as HR1.
  destruct (cstep_exact LW PI _ _ _ _ (rc_c _ HR1) Hs) as (es2 & El & Hx).
  destruct (log_prefix _ _ _ _ HR H) as [es1 E1].
  assert (es = es1 ++ es2) as ->. { rewrite El, E1, <-app_assoc in Hes. by apply app_inv_head in Hes. }
  assert (∀ j, forallb only_reads (sections j es1) = true ∧ forallb only_reads (sections j es2) = true) as Hq'.
  { intros i. specialize (Hq i). rewrite sections_app, forallb_app in Hq. by apply andb_true_iff in Hq. }
  destruct (IH HR es1 E1 (λ i, proj1 (Hq' i)) j s Hj) as (s1 & Hs1 & E0).
  destruct (Hx j s1 Hs1) as (s2 & Hs2 & [[_ (E & _)]|(o & r & E & Hd)]); exists s2; (split; [done|]); rewrite <-E0; [change (sh_iter s1 = sh_iter s2) in E; by rewrite E|].
  destruct (Hq' j) as [_ Hq2]. rewrite E in Hq2. simpl in Hq2. unfold abs in Hd. simpl in Hd.
  destruct o as [m| | |]; try done. destruct m; try done; destruct r; try done; destruct Hd as (_ & Hd & _); simpl in Hd; destruct Hd as [Hd _]; exact Hd.
Qed.
Lemma quiet_watch {A} dbg (f : shard → A) (g : list (K * V) → A) y vs y' es : Reach y → (∀ c c' : list (K * V), c ≡ₚ c' → g c = g c') → (∀ y j s, Reach y → shard_at y j = Some s → f s = g (sh_iter s)) →
  y_log y' = y_log y ++ es → (∀ j, forallb only_reads (sections j es) = true) →
  ∀ more ls, watch dbg f more 0 y vs ls y' → (∀ i z, vs !! i = Some z → ∃ s, shard_at y i = Some s ∧ z = g (sh_iter s)) ∧
    (length vs = N.to_nat (2 ^ e) ∨ ∃ z, z ∈ vs ∧ more z = false).
Proof.
  intros HR Hg Hfg Hl Hq more ls H. destruct (watch_reads _ _ _ _ _ _ _ _ HR H) as [H1 H2]. rewrite Nat.sub_0_r in H2. split; [|done].
  intros i z Hz. destruct (H1 i z Hz) as (l1 & y1 & s1 & l2 & S1 & S2 & Hs1 & ->). simpl in Hs1.
  pose proof (reach_steps LW PI _ _ _ _ HR S1) as HR1. rewrite (Hfg _ _ _ HR1 Hs1).
  destruct (log_prefix _ _ _ _ HR S1) as [es1 E1]. destruct (log_prefix _ _ _ _ HR1 S2) as [es2 E2].
  assert (es = es1 ++ es2) as ->. { rewrite E2, E1, <-app_assoc in Hl. by apply app_inv_head in Hl. }
  assert (∃ s, shard_at y i = Some s) as [s Hs].
  { apply lookup_lt_Some in Hs1. rewrite len_all in Hs1 by done. apply lookup_lt_is_Some. by rewrite len_all. }
  exists s. split; [done|]. apply Hg.
  destruct (quiet_items _ _ _ _ es1 HR S1 E1) with (j := i) (s := s) as (s' & Hs' & E'); [|done|].
  - intros j. specialize (Hq j). rewrite sections_app, forallb_app in Hq. apply andb_true_iff in Hq. apply Hq.
  - rewrite Hs1 in Hs'. by injection Hs' as <-.
Qed.
Lemma quiet_list {A} (g : list (K * V) → A) y (vs : list A) : Reach y → length vs = N.to_nat (2 ^ e) →
  (∀ i z, vs !! i = Some z → ∃ s, shard_at y i = Some s ∧ z = g (sh_iter s)) → vs = map g (map sh_iter (sc_shards (y_cache y))).
Proof.
  intros HR Hl H. rewrite map_map. apply list_eq_same_length with (n := N.to_nat (2 ^ e)); [by rewrite map_length, len_all|done|].
  intros i x z Hi Hx Hz. destruct (H i x Hx) as (s & Hs & ->). apply list_lookup_fmap_inv in Hz as (s' & -> & Hs').
  unfold shard_at in Hs. rewrite Hs' in Hs. by injection Hs as <-.
Qed.
Lemma sum_lens (l : list (list (K * V))) : foldr N.add 0%N (map (λ c, N.of_nat (length c)) l) = N.of_nat (length (concat l)).
Proof. induction l as [|c l' IH]; [done|]. cbn [map foldr concat]. rewrite app_length, IH. lia. Qed.
Lemma len_read y j s : Reach y → shard_at y j = Some s → sh_len s = N.of_nat (length (sh_iter s)).
Proof. intros HR Hs. apply (so_len _ _ _ _ (reach_sound LW _ _ _ HR Hs)). Qed.
Lemma weight_read y j s : Reach y → shard_at y j = Some s → sh_weight s = if (wsum (sh_iter s) <? two64)%N then Ok (wsum (sh_iter s)) else Fail WeightOvf.
Proof. intros HR Hs. apply (so_weight _ _ _ _ (reach_sound LW _ _ _ HR Hs)). Qed.
Lemma len_seen dbg y r y' es : Reach y → y_log y' = y_log y ++ es → (∀ j, forallb only_reads (sections j es) = true) → sees_len dbg y r y' →
  let n := N.of_nat (length (all_items y)) in r = if (n <? two64)%N then Ok n else Fail WeightOvf.
Proof.
  intros HR Hl Hq (vs & ls & H & ->). cbv zeta. destruct (quiet_watch _ sh_len (λ c, N.of_nat (length c)) _ _ _ _ HR (λ c c' Hp, f_equal N.of_nat (Permutation_length Hp)) len_read Hl Hq _ _ H) as [H1 [H2|(z & _ & ?)]]; [|done].
  rewrite sum64_eq. rewrite (quiet_list (λ c, N.of_nat (length c)) _ _ HR H2 H1), sum_lens. done.
Qed.
Lemma empty_seen dbg y (b : bool) y' es : Reach y → y_log y' = y_log y ++ es → (∀ j, forallb only_reads (sections j es) = true) → sees_is_empty dbg y b y' →
  b = true ↔ all_items y = [].
Proof.
  intros HR Hl Hq (vs & ls & H & ->). destruct (quiet_watch _ sh_len (λ c, N.of_nat (length c)) _ _ _ _ HR (λ c c' Hp, f_equal N.of_nat (Permutation_length Hp)) len_read Hl Hq _ _ H) as [H1 H2].
  rewrite forallb_forall. split.
  - intros Hf. destruct H2 as [H2|(z & Hz & Hz')].
    + pose proof (quiet_list (λ c, N.of_nat (length c)) _ _ HR H2 H1) as E. unfold all_items. revert Hf. rewrite E. clear. intros Hf.
      induction (sc_shards (y_cache y)) as [|s l IH]; [done|]. simpl in *. rewrite IH by auto.
      assert (N.of_nat (length (sh_iter s)) =? 0 = true)%N as Hz by auto. apply N.eqb_eq in Hz. destruct (sh_iter s); [done|simpl in Hz; lia].
    + rewrite Hf in Hz'; [done|]. by apply elem_of_list_In.
  - intros He z Hz%elem_of_list_In. apply elem_of_list_lookup in Hz as [i Hz]. destruct (H1 i z Hz) as (s & Hs & ->).
    unfold all_items in He. assert (sh_iter s = []) as ->; [|done]. apply elem_of_nil_inv. intros q Hin.
    assert (q ∈ concat (map sh_iter (sc_shards (y_cache y)))) as Hq'.
    { apply elem_of_list_In, in_concat. exists (sh_iter s). split; [|by apply elem_of_list_In]. apply elem_of_list_In, elem_of_list_fmap. exists s. split; [done|]. by eapply elem_of_list_lookup_2. }
    rewrite He in Hq'. by apply elem_of_nil in Hq'.
Qed.
Lemma wsum_elem (c : list (K * V)) (cs : list (list (K * V))) : c ∈ cs → (wsum c ≤ wsum (concat cs))%N.
Proof. induction 1 as [c cs|c c' cs H IH]; cbn [concat]; rewrite wsum_app; lia. Qed.
Definition weigh (c : list (K * V)) : res N := if (wsum c <? two64)%N then Ok (wsum c) else Fail WeightOvf.
Lemma weigh_perm (c c' : list (K * V)) : c ≡ₚ c' → weigh c = weigh c'.
Proof. intros H. unfold weigh. by rewrite (wsum_perm _ _ H). Qed.
Lemma weight_quiet dbg y r y' es : Reach y → y_log y' = y_log y ++ es → (∀ j, forallb only_reads (sections j es) = true) → sees_weight dbg y r y' →
  let w := wsum (all_items y) in r = if (w <? two64)%N then Ok w else Fail WeightOvf.
Proof.
  intros HR Hl Hq (vs & ls & H & ->). cbv zeta.
  destruct (quiet_watch _ sh_weight weigh _ _ _ _ HR weigh_perm weight_read Hl Hq _ _ H) as [H1 H2].
  destruct H2 as [H2|(z & Hz & Hz')].
  - assert (vs = sh_weight <$> sc_shards (y_cache y)) as ->.
    { rewrite (quiet_list weigh _ _ HR H2 H1), map_map. apply list_fmap_ext. intros i s Hs. symmetry. apply (so_weight _ _ _ _ (reach_sound LW _ _ _ HR Hs)). }
    apply items_wsum. intros s [j Hs]%elem_of_list_lookup. by apply (ci_inv _ _ _ _ _ (rc_c _ HR) j).
  - assert (two64 ≤ wsum (all_items y))%N as Hge.
    { apply elem_of_list_lookup in Hz as [i Hi]. destruct (H1 i z Hi) as (s & Hs & ->). unfold weigh in Hz'.
      destruct (N.ltb_spec (wsum (sh_iter s)) two64) as [|Hge]; [done|]. etrans; [exact Hge|]. apply wsum_elem.
      apply elem_of_list_fmap. exists s. split; [done|]. by eapply elem_of_list_lookup_2. }
    destruct (N.ltb_spec (wsum (all_items y)) two64); [lia|]. clear Hge.
    assert (∀ z, z ∈ vs → z = Fail WeightOvf ∨ ∃ w, z = Ok w) as Hall.
    { intros z0 [i Hi]%elem_of_list_lookup. destruct (H1 i z0 Hi) as (s & Hs & ->). unfold weigh. destruct (_ <? _)%N; eauto. }
    assert (seq_res vs = Fail WeightOvf) as ->; [|done]. clear -Hz Hz' Hall. induction vs as [|z0 vs IH]; [by apply elem_of_nil in Hz|].
    cbn [seq_res]. destruct (Hall z0) as [->|[w ->]]; [left|done|]. cbn [rbind]. apply elem_of_cons in Hz as [->|Hz]; [done|].
    rewrite IH; [done|done|]. intros; apply Hall; by right.
Qed.
(* each shard was read at some moment *)
Lemma len_moments dbg y r y' : Reach y → sees_len dbg y r y' → ∃ cs : list (list (K * V)),
  (let n := N.of_nat (length (concat cs)) in r = if (n <? two64)%N then Ok n else Fail WeightOvf) ∧ length cs = N.to_nat (2 ^ e) ∧
  ∀ j c, cs !! j = Some c → ∃ ls y1 s ls', steps dbg y ls y1 ∧ steps dbg y1 ls' y' ∧ sc_shards (y_cache y1) !! j = Some s ∧ c = sh_iter s.
Proof.
  intros HR (vs & ls & H & ->). destruct (watch_reads _ _ _ _ _ _ _ _ HR H) as [H1 [H2|(z & _ & ?)]]; [|done]. rewrite Nat.sub_0_r in H2.
  assert (∃ cs : list (list (K * V)), Forall2 (λ n c, n = N.of_nat (length c)) vs cs ∧
    ∀ j c, cs !! j = Some c → ∃ ls y1 s ls', steps dbg y ls y1 ∧ steps dbg y1 ls' y' ∧ sc_shards (y_cache y1) !! j = Some s ∧ c = sh_iter s) as (cs & HF & Hc).
  { clear H H2. induction vs as [|n vs IH] using rev_ind; [exists []; by split|].
    destruct IH as (cs & HF & Hc). { intros i z Hi. apply H1. by apply lookup_app_l_Some. }
    destruct (H1 (length vs) n) as (l1 & y1 & s & l2 & S1 & S2 & Hs & Hn); [by rewrite lookup_app_r, Nat.sub_diag by done|].
    pose proof (reach_steps LW PI _ _ _ _ HR S1) as HR1.
    exists (cs ++ [sh_iter s]). split.
    - apply Forall2_app; [done|]. constructor; [|done]. rewrite Hn. apply (so_len _ _ _ _ (reach_sound LW _ _ _ HR1 Hs)).
    - intros j c [Hj|[Hj Hj']]%lookup_app_Some; [by apply Hc|]. apply list_lookup_singleton_Some in Hj' as [Hj' <-].
      assert (j = length vs) as ->. { rewrite (Forall2_length _ _ _ HF). lia. } by exists l1, y1, s, l2. }
  exists cs. split; [|split; [by rewrite <-(Forall2_length _ _ _ HF)|done]]. cbv zeta. rewrite sum64_eq.
  assert (foldr N.add 0%N vs = N.of_nat (length (concat cs))) as ->; [|done].
  clear -HF. induction HF as [|n c vs cs -> HF IH]; [done|]. cbn [foldr concat]. rewrite IH, app_length. lia.
Qed.
End watchproofs.
