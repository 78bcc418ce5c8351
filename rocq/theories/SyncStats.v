(* The statistics of the sync cache used by one thread at a time. *)
From Verif Require Export SyncCount SyncSeq ConcStats.

Section syncstats.
Context {P : Params} (LW : Lawful P) (PI : ptr_ids P = true).
Implicit Types (s : shard P) (c : scache P) (m : scmd P).

Definition tot (f : shard P → N) c : N := foldr N.add 0%N (f <$> sc_shards c).
Lemma tot_insert (f : shard P → N) (l : list (shard P)) j s s' : l !! j = Some s →
  (foldr N.add 0 (f <$> <[j := s']> l) + f s = foldr N.add 0 (f <$> l) + f s')%N.
Proof.
  revert j. induction l as [|x l IH]; intros [|j] Hj; try done; csimpl; [injection Hj as ->; lia|]. specialize (IH j Hj). lia.
Qed.
Lemma get_stats s k s' r : xexec s (XCmd (CGet k)) = Ok (s', r) →
  ∃ vo, r = XO (plain (RVal vo)) ∧ sh_hits s' = (sh_hits s + if vo then 1 else 0)%N ∧ sh_misses s' = (sh_misses s + if vo then 0 else 1)%N.
Proof.
  cbn [xexec exec]. unfold u_get, sh_get. destruct (search_resident s (hash P k) k) as [[[i x]|]|]; cbn; intros H; try done; injection H as <- <-.
  - exists (Some (r_val x)). split; [done|]. cbn. lia.
  - exists None. split; [done|]. cbn. lia.
Qed.
Lemma quiet_stats s (m : cmd P) s' o : Inv s → sync_cmd m = true → (∀ k, m ≠ CGet k) → exec s m = Ok (s', o) →
  sh_hits s' = sh_hits s ∧ sh_misses s' = sh_misses s.
Proof.
  intros HI Hm Hg He. pose proof (exec_spec LW s m HI) as H. rewrite He in H. cbn in H.
  pose proof (st_stats _ _ _ _ H) as Hc. unfold counts in Hc. destruct m; try done; try (by destruct (Hg k)); simpl in Hc; unfold stats in Hc; by injection Hc.
Qed.
Lemma join_fill s k s1 p x s2 r : Inv s → SyncSeq.idle s → value_of k (sh_iter s) = None → xexec s (XJoin k) = Ok (s1, XNew p) →
  (∃ rs v wl, x = XFill rs p false v wl) ∨ x = XDrop p → xexec s1 x = Ok (s2, r) →
  sh_hits s2 = sh_hits s ∧ sh_misses s2 = (sh_misses s + 1)%N.
Proof.
  intros HI Hi Hv Hj Hx He. pose proof (join_sect LW PI s k HI Hi Hv) as H. rewrite Hj in H. cbn in H.
  destruct H as (HI1 & _ & _ & p' & [= <-] & Hg & _).
  destruct (xexec_stats LW PI s (XJoin k) s1 _ HI I ltac:(done) ltac:(done) Hj) as [H1 H2]. cbn in H1, H2.
  assert (sh_hits s2 = sh_hits s1 ∧ sh_misses s2 = sh_misses s1) as [-> ->]; [|lia].
  assert (sync_sect x) as Hs by (by destruct Hx as [(? & ? & ? & ->)| ->]).
  destruct (xexec_stats LW PI s1 x s2 r HI1 Hs) as [H3 H4].
  - by destruct Hx as [(? & ? & ? & ->)| ->].
  - destruct Hx as [(? & ? & ? & ->)| ->]; cbn; by intros ? [= <-].
  - done.
  - rewrite H3, H4. destruct Hx as [(? & ? & ? & ->)| ->]; cbn; lia.
Qed.
Lemma shard_stats s m s' o : Inv s → SyncSeq.idle s → api m → is_Some (s_key m) → shard_exec s m = Ok (s', o) →
  sh_hits s' = (sh_hits s + (looked m o).1)%N ∧ sh_misses s' = (sh_misses s + (looked m o).2)%N.
Proof.
  intros HI Hi Ha Hk He. destruct m as [k m|m|rs k g|rs k w]; [|by destruct Hk| |]; cbn [shard_exec] in He.
  - destruct Ha as [Hm Hkm]. destruct m; try done; try (destruct (quiet_stats _ _ _ _ HI Hm ltac:(done) He) as [-> ->]; cbn; lia).
    destruct (get_stats s k0 s' (XO o)) as (vo & [= ->] & -> & ->); [cbn [xexec]; by rewrite He|]. destruct vo; cbn; lia.
  - destruct (get_sect LW s k HI) as (s1 & E & Hq). rewrite E in He. destruct (get_stats _ _ _ _ E) as (vo & [= <-] & H1 & H2). cbn [rbind plain] in He.
    destruct (value_of k (sh_iter s)) as [v|] eqn:Hv; [injection He as <- <-; cbn; lia|].
    destruct (xexec s1 (XJoin k)) as [[s2 r2]|] eqn:Ej; [|done]. cbn [rbind] in He.
    assert (SyncSeq.idle s1) as Hi1 by (intros t q; rewrite (q_ph _ _ Hq); apply Hi).
    assert (value_of k (sh_iter s1) = None) as Hv1 by (by rewrite (q_iter _ _ Hq)).
    pose proof (join_sect LW PI s1 k (q_inv _ _ Hq) Hi1 Hv1) as Hj. rewrite Ej in Hj. cbn in Hj. destruct Hj as (HI2 & _ & _ & p & -> & Hg & Hpe & Hall).
    destruct g as [v wl|].
    + pose proof (fill_sect LW PI s2 k rs p v wl HI2 Hg Hpe Hall) as Hf.
      destruct (xexec s2 (XFill rs p false v wl)) as [[s3 r3]|] eqn:Ef; [|done]. cbn in Hf. destruct Hf as (_ & _ & _ & es & rs' & -> & _). cbn in He. injection He as <- <-.
      destruct (join_fill s1 k s2 p _ s3 _ (q_inv _ _ Hq) Hi1 Hv1 Ej ltac:(left; by do 3 eexists) Ef) as [-> ->]. cbn. lia.
    + destruct (xexec s2 (XDrop p)) as [[s3 r3]|] eqn:Ef; [|done]. cbn in He. injection He as <- <-.
      destruct (join_fill s1 k s2 p _ s3 _ (q_inv _ _ Hq) Hi1 Hv1 Ej ltac:(by right) Ef) as [-> ->]. cbn. lia.
  - destruct (get_sect LW s k HI) as (s1 & E & Hq). rewrite E in He. destruct (get_stats _ _ _ _ E) as (vo & [= <-] & H1 & H2). cbn [rbind plain] in He.
    destruct (value_of k (sh_iter s)) as [v|] eqn:Hv; [injection He as <- <-; cbn; lia|].
    destruct (xexec s1 (XJoin k)) as [[s2 r2]|] eqn:Ej; [|done]. cbn [rbind] in He.
    assert (SyncSeq.idle s1) as Hi1 by (intros t q; rewrite (q_ph _ _ Hq); apply Hi).
    assert (value_of k (sh_iter s1) = None) as Hv1 by (by rewrite (q_iter _ _ Hq)).
    pose proof (join_sect LW PI s1 k (q_inv _ _ Hq) Hi1 Hv1) as Hj. rewrite Ej in Hj. cbn in Hj. destruct Hj as (HI2 & _ & _ & p & -> & Hg & Hpe & Hall).
    destruct w as [v|].
    + destruct (xexec s2 (XFill rs p false v false)) as [[s3 r3]|] eqn:Ef; [|done]. cbn in He. destruct r3; try done. injection He as <- <-.
      destruct (join_fill s1 k s2 p _ s3 _ (q_inv _ _ Hq) Hi1 Hv1 Ej ltac:(left; by do 3 eexists) Ef) as [-> ->]. cbn. lia.
    + destruct (xexec s2 (XDrop p)) as [[s3 r3]|] eqn:Ef; [|done]. cbn in He. injection He as <- <-.
      destruct (join_fill s1 k s2 p _ s3 _ (q_inv _ _ Hq) Hi1 Hv1 Ej ltac:(by right) Ef) as [-> ->]. cbn. lia.
Qed.
Lemma on_shards_tot (m : cmd P) js : ∀ c c', NoDup js → (∀ j s, j ∈ js → sc_shards c !! j = Some s → Inv s) → api (SAll m) →
  on_shards c js (XCmd m) = Ok c' → tot sh_hits c' = tot sh_hits c ∧ tot sh_misses c' = tot sh_misses c.
Proof.
  induction js as [|j js IH]; intros c c' Hnd Hall Hm He; cbn [on_shards] in He; [by injection He as <-|].
  apply NoDup_cons in Hnd as [Hj Hnd]. unfold on_shard in He. destruct (sc_shards c !! j) as [s|] eqn:Hs; [|done]. cbn [unwrap rbind xexec] in He.
  destruct (exec s m) as [[s1 o]|] eqn:E; [|done]. cbn [rbind] in He.
  assert (sh_hits s1 = sh_hits s ∧ sh_misses s1 = sh_misses s) as [E1 E2].
  { apply (quiet_stats s m s1 o); [by eapply Hall; [left|]| | |done]; destruct Hm as [->|[->|[f ->]]]; done. }
  destruct (IH (with_shard c j s1) c' Hnd) as [-> ->]; [|done|done|].
  - intros i x Hi. simpl. rewrite list_lookup_insert_ne by (intros ->; done). apply Hall. by right.
  - unfold tot. simpl. pose proof (tot_insert sh_hits _ j s s1 Hs). pose proof (tot_insert sh_misses _ j s s1 Hs). rewrite E1, E2 in *. lia.
Qed.
Lemma exec_tot b g cap e c m c' o : SI b g cap e c → api m → sc_exec c m = Ok (c', o) →
  tot sh_hits c' = (tot sh_hits c + (looked m o).1)%N ∧ tot sh_misses c' = (tot sh_misses c + (looked m o).2)%N.
Proof.
  intros HS Hm He. destruct (s_key m) as [k|] eqn:Hk.
  - destruct (lookup_lt_is_Some_2 _ _ (idx_lt _ _ _ _ c k HS)) as [s Hs].
    destruct (si_inv _ _ _ _ _ HS _ _ Hs) as [HI Hc]. pose proof (si_idle _ _ _ _ _ HS _ _ Hs) as Hi.
    rewrite (sc_exec_eq c k (shard_idx (sc_mask c) k) s m) in He by (done || by eapply shard_for_ok).
    destruct (shard_exec s m) as [[s1 o1]|] eqn:E; [|done]. cbn in He. injection He as <- <-.
    destruct (shard_stats s m s1 o1 HI Hi Hm ltac:(by rewrite Hk) E) as [H1 H2]. unfold tot. simpl.
    pose proof (tot_insert sh_hits _ _ s s1 Hs). pose proof (tot_insert sh_misses _ _ s s1 Hs). lia.
  - destruct m as [?|m|?|?]; try done. cbn [sc_exec] in He. unfold on_all in He. destruct (on_shards c _ (XCmd m)) as [c1|] eqn:E; [|done]. cbn in He. injection He as <- <-.
    destruct (on_shards_tot m _ c c1 (NoDup_seq _ _) ltac:(intros; by eapply si_inv) Hm E) as [-> ->]. cbn. lia.
Qed.
Lemma add_snoc (l : list N) x : foldr N.add 0%N (l ++ [x]) = (foldr N.add 0 l + x)%N.
Proof. induction l as [|y l IH]; simpl; [lia|]. rewrite IH. lia. Qed.
Lemma sc_run_length h : ∀ c c' (os : list (out P)), sc_run c h = Ok (c', os) → length os = length h.
Proof.
  induction h as [|m h IH]; intros c c' os H; cbn in H; [by injection H as _ <-|].
  destruct (sc_exec c m) as [[c1 o]|]; [|done]. cbn in H. destruct (sc_run c1 h) as [[c2 os2]|] eqn:E; [|done]. cbn in H. injection H as _ <-. simpl. f_equal. by eapply IH.
Qed.
Lemma history_tot b g cap e h os c : s_history b g cap e h os c → tot sh_hits c = hits_of h os ∧ tot sh_misses c = misses_of h os.
Proof.
  intros H. refine (proj2 (s_history_ind LW PI b g cap e (λ h os c, tot sh_hits c = hits_of h os ∧ tot sh_misses c = misses_of h os) _ _ h os c H)).
  - unfold tot, sc_fresh. simpl. by induction (N.to_nat (2 ^ e)) as [|n [IH1 IH2]].
  - clear h os c H. intros h os c m o c' [_ Hr] HS [H1 H2] Hm He _ _. pose proof (sc_run_length _ _ _ _ Hr) as HL. unfold hits_of, misses_of.
    rewrite !zip_with_app by done. simpl. rewrite !add_snoc. destruct (exec_tot _ _ _ _ _ _ _ _ HS Hm He) as [-> ->]. by rewrite H1, H2.
Qed.
End syncstats.
