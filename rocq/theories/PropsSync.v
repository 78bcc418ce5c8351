(* C29: the sync cache used by one thread at a time. The vocabulary is in PropSpec.v and
   SyncSpec.v. *)
From Verif Require Import SyncSeq DemoSync.

(* Every cache the constructor builds is one of those the theorems below are about. *)
Theorem C29_constructed : ∀ (P : Params) o (c : scache P), sync_new o = Ok c →
  ∃ budget ghosts cap e, c = sc_fresh budget ghosts cap (2 ^ e).
Proof.
  intros P o c H. destruct (sync_new_inv _ _ H) as (e & _ & _ & _ & Hm & Hs). destruct c as [l m]. simpl in *. subst.
  by eexists _, _, _, e.
Qed.
Print Assumptions C29_constructed.

(* A call on a key changes the shard of the key only, and what it returns and does depends on
   that shard only: on any other cache that has the same shard in the same place, the call
   returns the same and leaves the same shard. *)
Theorem C29_keyed_calls_are_local : ∀ (P : Params), Lawful P → ptr_ids P = true →
  ∀ budget ghosts cap e (h : list (scmd P)) os c m k c' o,
  s_history budget ghosts cap e h os c → api m → s_key m = Some k → sc_exec c m = Ok (c', o) →
  let j := shard_idx (sc_mask c) k in
  ∃ s', sc_shards c' = <[j := s']> (sc_shards c) ∧ sc_mask c' = sc_mask c ∧
    ∀ h2 os2 d, s_history budget ghosts cap e h2 os2 d → sc_shards d !! j = sc_shards c !! j →
      sc_exec d m = Ok (SCache (<[j := s']> (sc_shards d)) (sc_mask d), o).
Proof.
  intros P LW PI budget ghosts cap e h os c m k c' o H Hm Hk He. cbv zeta.
  destruct (keyed_step LW PI _ _ _ _ _ _ _ _ _ _ _ H Hm Hk He) as (s & s' & Hs & -> & Hx & _). exists s'. split; [done|]. split; [done|].
  intros h2 os2 d H2 Hd. pose proof (s_history_SI LW PI _ _ _ _ _ _ _ H2) as HS2. pose proof (s_history_SI LW PI _ _ _ _ _ _ _ H) as HS.
  assert (sc_mask d = sc_mask c) as Em by (by rewrite (si_mask _ _ _ _ _ HS), (si_mask _ _ _ _ _ HS2)).
  rewrite (sc_exec_eq d k (shard_idx (sc_mask c) k) s m); [by rewrite Hx|done|rewrite <-Em; by eapply shard_for_ok|by rewrite Hd].
Qed.
Print Assumptions C29_keyed_calls_are_local.

(* Every call does to each shard it concerns what ApiSpec.v allows a cache without shards, and
   leaves the others as they are; it fails only for the reasons C11 lists. *)
Theorem C29_shards_behave : ∀ (P : Params), Lawful P → ptr_ids P = true →
  ∀ budget ghosts cap e (h : list (scmd P)) os c m,
  s_history budget ghosts cap e h os c → api m →
  match sc_exec c m with
  | Ok (c', o) => length (sc_shards c') = length (sc_shards c) ∧ ∀ j s s',
      sc_shards c !! j = Some s → sc_shards c' !! j = Some s' →
      match s_key m with Some k => j = shard_idx (sc_mask c) k | None => True end →
      s_does cap budget (sh_iter s) m o (sh_iter s')
  | Fail f => ∃ k s, s_key m = Some k ∧ sc_shards c !! shard_idx (sc_mask c) k = Some s ∧
      (f = SlabFull ∧ (two32 ≤ storage s + 2)%N ∨ f = WeightOvf ∧ may_overflow cap budget (sh_iter s) (as_cmd m))
  end.
Proof.
  intros P LW PI budget ghosts cap e h os c m H Hm. pose proof (s_history_SI LW PI _ _ _ _ _ _ _ H) as HS.
  pose proof (sc_exec_spec LW PI _ _ _ _ _ _ HS Hm) as Hx. destruct (sc_exec c m) as [[c' o]|f]; simpl in Hx.
  - destruct Hx as [[A B C] _]. split; [done|]. intros j s s' Hs Hs' Hj. destruct (C _ _ Hs') as (s2 & Hs2 & HI & Hok).
    rewrite Hs in Hs2. injection Hs2 as <-. rewrite decide_True in Hok by exact Hj.
    destruct (s_history_cfg _ _ _ _ _ _ _ HS Hs) as (E1 & E2 & _). rewrite <-E1, <-E2. apply Hok.
  - destruct Hx as (k & s & Hk & Hs & Hf). destruct (s_history_cfg _ _ _ _ _ _ _ HS Hs) as (E1 & E2 & _).
    exists k, s. split; [done|]. split; [done|]. destruct f; simpl in Hf; try done; [left|right]; (split; [done|]).
    + pose proof (used_slots s) as Hu. unfold slots in Hu. rewrite storage_slots. unfold slots. lia.
    + by rewrite E1, E2 in Hf.
Qed.
Print Assumptions C29_shards_behave.

(* len(), weight() and is_empty() are those of the union of the shards. *)
Theorem C29_len_weight_empty : ∀ (P : Params), Lawful P → ptr_ids P = true →
  ∀ budget ghosts cap e (h : list (scmd P)) os c,
  s_history budget ghosts cap e h os c →
  (let n := N.of_nat (length (sc_items c)) in sc_len c = if (n <? two64)%N then Ok n else Fail WeightOvf) ∧
  (let w := wsum (sc_items c) in sc_weight c = if (w <? two64)%N then Ok w else Fail WeightOvf) ∧
  (sc_is_empty c = true ↔ sc_items c = []).
Proof.
  intros P LW PI budget ghosts cap e h os c H. pose proof (s_history_SI LW PI _ _ _ _ _ _ _ H) as HS.
  assert (∀ s, s ∈ sc_shards c → Inv s) as HI.
  { intros s [j Hs]%elem_of_list_lookup. by eapply s_history_cfg. }
  cbv zeta. split_and!.
  - unfold sc_len. rewrite sum64_eq. unfold sc_items. by rewrite items_length.
  - unfold sc_weight. apply items_wsum, HI.
  - unfold sc_is_empty, sc_items. clear -HI. induction (sc_shards c) as [|s l IH]; csimpl; [done|].
    rewrite andb_true_iff, IH by (intros; apply HI; by right). rewrite (len_exact s) by (apply HI; left).
    rewrite N.eqb_eq. split.
    + intros [H1 ->]. destruct (sh_iter s); [done|simpl in H1; lia].
    + intros [-> ->]%app_eq_nil. done.
Qed.
Print Assumptions C29_len_weight_empty.

(* A key is only ever in the shard its hash selects, so never in two. *)
Theorem C29_key_in_one_shard : ∀ (P : Params), Lawful P → ptr_ids P = true →
  ∀ budget ghosts cap e (h : list (scmd P)) os c j s k v,
  s_history budget ghosts cap e h os c → sc_shards c !! j = Some s → (k, v) ∈ sh_iter s →
  j = shard_idx (sc_mask c) k ∧
  ∀ j' s' k' v', sc_shards c !! j' = Some s' → (k', v') ∈ sh_iter s' → keqb P k k' = true → j' = j ∧ v' = v ∧ k' = k.
Proof.
  intros P LW PI budget ghosts cap e h os c j s k v H Hs Hin. pose proof (s_history_located LW PI _ _ _ _ _ _ _ H) as Hl.
  split; [symmetry; by eapply Hl|]. intros j' s' k' v' Hs' Hin' Hk.
  assert (j' = j) as ->.
  { rewrite <-(Hl _ _ _ _ Hs' Hin'), <-(Hl _ _ _ _ Hs Hin). symmetry. by apply (idx_keqb LW). }
  split; [done|]. rewrite Hs in Hs'. injection Hs' as <-. pose proof (s_history_SI LW PI _ _ _ _ _ _ _ H) as HS.
  destruct (s_history_cfg _ _ _ _ _ _ _ HS Hs) as (_ & _ & HI).
  apply elem_of_list_lookup in Hin as [i Hi]. apply elem_of_list_lookup in Hin' as [i' Hi'].
  assert (i = i') as <- by (eapply (ukeys_lookup LW); [apply (inv_ukeys LW s HI)|exact Hi|exact Hi'|exact Hk]).
  rewrite Hi in Hi'. by injection Hi'.
Qed.
Print Assumptions C29_key_in_one_shard.

(* C05 for the whole cache *)
Theorem C29_hit_is_last_write : ∀ (P : Params), Lawful P → ptr_ids P = true →
  ∀ budget ghosts cap e (h : list (scmd P)) os c k v c' o,
  s_history budget ghosts cap e h os c →
  sc_exec c (SKey k (CGet k)) = Ok (c', o) ∨ sc_exec c (SKey k (CPeek k)) = Ok (c', o) → o_ret o = RVal (Some v) →
  came_from (s_past h os) k v.
Proof.
  intros P LW PI budget ghosts cap e h os c k v c' o H He Ho.
  destruct (items_value LW PI _ _ _ _ _ _ _ k H) as (s & Hs & HI & _ & Hv).
  assert (value_of k (sh_iter s) = Some v) as E.
  { assert (∀ m, m = CGet k ∨ m = CPeek k → sc_exec c (SKey k m) = Ok (c', o) → value_of k (sh_iter s) = Some v) as Hm.
    { intros m Hm Hx. destruct (keyed_step LW PI _ _ _ _ _ _ _ (SKey k m) k _ _ H ltac:(by destruct Hm as [->| ->]) eq_refl Hx)
        as (s2 & s' & Hs2 & _ & _ & _ & Hok & _). rewrite Hs in Hs2. injection Hs2 as <-.
      pose proof (sk_does _ _ _ _ Hok) as Hd. destruct Hm as [->| ->]; simpl in Hd; destruct Hd as [_ ->]; simpl in Ho; congruence. }
    destruct He as [He|He]; [apply (Hm (CGet k))|apply (Hm (CPeek k))]; eauto. }
  apply Hv in E as (k' & Hin & Hk). eapply (came_from_cong LW); [exact (s_history_sourced LW PI _ _ _ _ _ _ _ H _ _ Hin)|].
  by apply (keqb_sym _ LW).
Qed.
Print Assumptions C29_hit_is_last_write.
(* every value the loading calls return for a cached key, too *)
Theorem C29_loads_return_last_write : ∀ (P : Params), Lawful P → ptr_ids P = true →
  ∀ budget ghosts cap e (h : list (scmd P)) os c k v c' o m rs,
  s_history budget ghosts cap e h os c →
  (∃ g, m = SValueOrGuard rs k g) ∨ (∃ w, m = SGetOrInsert rs k w) → sc_exec c m = Ok (c', o) → o_ret o = RVal (Some v) →
  came_from (s_past (h ++ [m]) (os ++ [o])) k v.
Proof.
  intros P LW PI budget ghosts cap e h os c k v c' o m rs H Hm He Ho.
  assert (api m ∧ s_key m = Some k) as [Ha Hk] by (by destruct Hm as [[g ->]|[w ->]]).
  destruct (items_value LW PI _ _ _ _ _ _ _ k H) as (s & Hs & HI & _ & Hv).
  destruct (keyed_step LW PI _ _ _ _ _ _ _ m k _ _ H Ha Hk He) as (s2 & s' & Hs2 & _ & _ & _ & Hok & _). rewrite Hs in Hs2. injection Hs2 as <-.
  pose proof (sk_does _ _ _ _ Hok) as Hd. rewrite s_past_snoc by (symmetry; eapply s_run_length; apply H).
  assert (value_of k (sh_iter s) = Some v → effects (as_cmd m) o = [] → came_from (s_past h os ++ effects (as_cmd m) o) k v) as Hold.
  { intros E ->. rewrite app_nil_r. apply Hv in E as (k' & Hin & Hkk).
    eapply (came_from_cong LW); [exact (s_history_sourced LW PI _ _ _ _ _ _ _ H _ _ Hin)|]. by apply (keqb_sym _ LW). }
  destruct Hm as [[g ->]|[w ->]].
  - destruct g as [v' wl|]; simpl in Hd; destruct (value_of k (sh_iter s)) as [v0|]; simpl in Hd.
    + destruct Hd as [_ ->]. simpl in Ho. injection Ho as ->. by apply Hold.
    + destruct Hd as (kp & es & rs' & _ & _ & ->). done.
    + destruct Hd as [_ ->]. simpl in Ho. injection Ho as ->. by apply Hold.
    + by destruct Hd as [_ ->].
  - destruct w as [v'|]; simpl in Hd; destruct (value_of k (sh_iter s)) as [v0|]; simpl in Hd.
    + destruct Hd as [_ ->]. simpl in Ho. injection Ho as ->. by apply Hold.
    + destruct Hd as (es & rs' & _ & ->). simpl in Ho. injection Ho as ->. simpl. apply cf_wrote, (keqb_refl _ LW).
    + destruct Hd as [_ ->]. simpl in Ho. injection Ho as ->. by apply Hold.
    + by destruct Hd as [_ ->].
Qed.
Print Assumptions C29_loads_return_last_write.

(* C06 for the whole cache *)
Theorem C29_no_resurrection : ∀ (P : Params), Lawful P → ptr_ids P = true →
  ∀ budget ghosts cap e (h1 : list (scmd P)) os1 c1 m c2 o h2 c3 os2 k,
  s_history budget ghosts cap e h1 os1 c1 → api m → sc_exec c1 m = Ok (c2, o) → erases (as_cmd m) k (sc_items c1) →
  Forall api h2 → sc_run c2 h2 = Ok (c3, os2) → Forall (λ m, creates (as_cmd m) k = false) h2 →
  (∀ k' v', (k', v') ∈ sc_items c3 → keqb P k k' = false) ∧
  ∀ c4 o4, sc_exec c3 (SKey k (CPeek k)) = Ok (c4, o4) → o_ret o4 = RVal None.
Proof.
  intros P LW PI budget ghosts cap e h1 os1 c1 m c2 o h2 c3 os2 k H Hm He Her Ha Hr Hc.
  destruct (s_history_step LW PI _ _ _ _ _ _ _ _ _ _ H Hm He) as (HS1 & Hst & HS2).
  pose proof (erases_gone LW PI _ _ _ _ _ _ _ _ _ _ _ H Hm He Her) as Hg.
  pose proof (gone_run LW PI _ _ _ _ _ _ _ _ _ HS2 Ha Hr Hg Hc) as Hg3. split; [exact Hg3|].
  intros c4 o4 Hx. assert (s_history budget ghosts cap e (h1 ++ m :: h2) (os1 ++ o :: os2) c3) as H3.
  { destruct H as [Ha1 H]. split; [apply Forall_app; split; [done|by constructor]|]. rewrite sc_run_app, H. simpl. by rewrite He; simpl; rewrite Hr. }
  destruct (items_value LW PI _ _ _ _ _ _ _ k H3) as (s & Hs & HI & _ & Hv).
  destruct (keyed_step LW PI _ _ _ _ _ _ _ (SKey k (CPeek k)) k _ _ H3 ltac:(done) eq_refl Hx) as (s2 & s' & Hs2 & _ & _ & _ & Hok & _).
  rewrite Hs in Hs2. injection Hs2 as <-. pose proof (sk_does _ _ _ _ Hok) as [_ ->]. simpl. f_equal.
  destruct (value_of k (sh_iter s)) as [v|] eqn:E; [|done]. destruct (proj1 (Hv v) eq_refl) as (k' & Hin & Hk). by rewrite (Hg3 _ _ Hin) in Hk.
Qed.
Print Assumptions C29_no_resurrection.

(* C07 for the whole cache *)
Theorem C29_lookups_agree : ∀ (P : Params), Lawful P → ptr_ids P = true →
  ∀ budget ghosts cap e (h : list (scmd P)) os c k,
  s_history budget ghosts cap e h os c →
  ∃ r, (∀ v, r = Some v ↔ ∃ k', (k', v) ∈ sc_items c ∧ keqb P k k' = true) ∧
    (∃ c', sc_exec c (SKey k (CPeek k)) = Ok (c', plain (RVal r))) ∧
    (∃ c', sc_exec c (SKey k (CGet k)) = Ok (c', plain (RVal r))) ∧
    (∃ c', sc_exec c (SKey k (CContains k)) = Ok (c', plain (RBool (bool_decide (is_Some r))))).
Proof.
  intros P LW PI budget ghosts cap e h os c k H. pose proof (s_history_SI LW PI _ _ _ _ _ _ _ H) as HS.
  destruct (items_value LW PI _ _ _ _ _ _ _ k H) as (s & Hs & HI & _ & Hv). exists (value_of k (sh_iter s)). split; [exact Hv|].
  rewrite !(key_exec _ _ _ _ c k _ s HS Hs). cbn [exec]. unfold u_peek, u_get, u_contains.
  rewrite (sh_peek_spec LW s k HI), (sh_contains_spec LW s k HI). destruct (sh_get_spec LW s k HI) as (s1 & -> & _). simpl.
  split_and!; eauto. eexists. do 4 f_equal. unfold has, value_of. by destruct (find_key k (sh_iter s)) as [[??]|].
Qed.
Print Assumptions C29_lookups_agree.
Theorem C29_unique_keys : ∀ (P : Params), Lawful P → ptr_ids P = true →
  ∀ budget ghosts cap e (h : list (scmd P)) os c,
  s_history budget ghosts cap e h os c →
  ∀ i j p q, sc_items c !! i = Some p → sc_items c !! j = Some q → keqb P p.1 q.1 = true → i = j.
Proof.
  intros P LW PI budget ghosts cap e h os c H. pose proof (s_history_located LW PI _ _ _ _ _ _ _ H) as Hl.
  pose proof (s_history_SI LW PI _ _ _ _ _ _ _ H) as HS. intros i j p q. apply (ukeys_lookup LW).
  assert (∀ i s, sc_shards c !! i = Some s → ukeys (sh_iter s) ∧ ∀ k v, (k, v) ∈ sh_iter s → shard_idx (sc_mask c) k = i) as Hall.
  { intros i' s Hs. destruct (s_history_cfg _ _ _ _ _ _ _ HS Hs) as (_ & _ & HI). split; [by apply (inv_ukeys LW)|]. intros k v. by apply Hl. }
  clear -Hall LW. unfold sc_items. revert Hall.
  assert (∀ (l : list (shard P)) n, (∀ i s, l !! i = Some s → ukeys (sh_iter s) ∧ ∀ k v, (k, v) ∈ sh_iter s → shard_idx (sc_mask c) k = n + i) →
    ukeys (concat (sh_iter <$> l))) as Hgen; [|by apply (Hgen _ 0)].
  induction l as [|s l IH]; intros n Hall; csimpl; [done|].
  apply ukeys_app.
  - by destruct (Hall 0 s eq_refl).
  - apply (IH (S n)). intros i s' Hs'. destruct (Hall (S i) s' Hs') as [H1 H2]. split; [done|]. intros k v Hin. rewrite (H2 k v Hin). lia.
  - intros [k v] [k' v'] Hin Hin'. simpl. destruct (keqb P k k') eqn:Hk; [|done]. exfalso.
    destruct (Hall 0 s eq_refl) as [_ H1]. specialize (H1 _ _ Hin). apply elem_of_list_In, in_concat in Hin' as (l' & Hl' & Hin').
    apply elem_of_list_In, elem_of_list_fmap in Hl' as (s' & -> & Hs'). apply elem_of_list_lookup in Hs' as [i Hs'].
    destruct (Hall (S i) s' Hs') as [_ H2]. apply elem_of_list_In in Hin'. specialize (H2 _ _ Hin'). rewrite (idx_keqb LW _ _ _ Hk) in H1. lia.
Qed.
Print Assumptions C29_unique_keys.

(* C08 for the whole cache *)
Theorem C29_insert_conserves : ∀ (P : Params), Lawful P → ptr_ids P = true →
  ∀ budget ghosts cap e (h : list (scmd P)) os c rs k v wl c' o,
  s_history budget ghosts cap e h os c → sc_exec c (SKey k (CInsert rs k v wl)) = Ok (c', o) →
  explains ((k, v) :: sc_items c) (hooks_of o) (sc_items c').
Proof.
  intros P LW PI budget ghosts cap e h os c rs k v wl c' o H He.
  destruct (keyed_step LW PI _ _ _ _ _ _ _ (SKey k (CInsert rs k v wl)) k _ _ H ltac:(done) eq_refl He) as (s & s' & Hs & -> & _ & HI & Hok & E1 & E2).
  pose proof (sk_does _ _ _ _ Hok) as (es & rs' & Hi & ->). rewrite hooks_of_reply.
  destruct (items_split c _ s Hs) as (rest & H1 & H2).
  eapply explains_perm_l; [by rewrite H1|]. eapply explains_perm_r; [|symmetry; apply H2].
  apply (explains_frame ((k, v) :: sh_iter s)). rewrite <-(app_nil_r (sh_iter s')).
  exact (inserts_explains LW _ _ _ _ _ _ _ _ _ _ _ (inv_ukeys LW s HI) Hi).
Qed.
Print Assumptions C29_insert_conserves.
Theorem C29_replace_conserves : ∀ (P : Params), Lawful P → ptr_ids P = true →
  ∀ budget ghosts cap e (h : list (scmd P)) os c rs k v soft wl c' o,
  s_history budget ghosts cap e h os c → sc_exec c (SKey k (CReplace rs k v soft wl)) = Ok (c', o) →
  ∃ back, o_ret o = RPair back ∧
    explains ((k, v) :: sc_items c) (hooks_of o) (sc_items c' ++ match back with Some p => [p] | None => [] end).
Proof.
  intros P LW PI budget ghosts cap e h os c rs k v soft wl c' o H He.
  destruct (keyed_step LW PI _ _ _ _ _ _ _ (SKey k (CReplace rs k v soft wl)) k _ _ H ltac:(done) eq_refl He) as (s & s' & Hs & -> & _ & HI & Hok & E1 & E2).
  pose proof (sk_does _ _ _ _ Hok) as (es & rs' & b & Hi & ->). exists b. split; [by destruct b|].
  destruct (items_split c _ s Hs) as (rest & H1 & H2).
  pose proof (inserts_explains LW _ _ _ _ _ _ _ _ _ _ _ (inv_ukeys LW s HI) Hi) as Hx.
  assert (explains ((k, v) :: sc_items c) es (sc_items (with_shard c (shard_idx (sc_mask c) k) s') ++ match b with Some p => [p] | None => [] end)) as Hy.
  { eapply explains_perm_l; [by rewrite H1|]. eapply explains_perm_r; [exact (explains_frame _ _ _ rest Hx)|].
    rewrite (H2 s'), <-!app_assoc. apply Permutation_app_head, Permutation_app_comm. }
  by destruct b; [rewrite hooks_of_begin|rewrite hooks_of_reply].
Qed.
Print Assumptions C29_replace_conserves.
(* the loads of absent keys, by get_value_or_guard and get_or_insert_with *)
Theorem C29_load_conserves : ∀ (P : Params), Lawful P → ptr_ids P = true →
  ∀ budget ghosts cap e (h : list (scmd P)) os c m k v c' o,
  s_history budget ghosts cap e h os c → sc_exec c m = Ok (c', o) → (∀ k' v', (k', v') ∈ sc_items c → keqb P k k' = false) →
  (∃ rs, m = SGetOrInsert rs k (Some v)) ∨ (∃ rs wl, m = SValueOrGuard rs k (SInsert v wl)) →
  ∃ kp, keqb P k kp = true ∧ explains ((kp, v) :: sc_items c) (hooks_of o) (sc_items c').
Proof.
  intros P LW PI budget ghosts cap e h os c m k v c' o H He Hn Hm.
  assert (api m ∧ s_key m = Some k) as [Ha Hk] by (by destruct Hm as [[rs ->]|(rs & wl & ->)]).
  destruct (keyed_step LW PI _ _ _ _ _ _ _ _ k _ _ H Ha Hk He) as (s & s' & Hs & -> & _ & HI & Hok & E1 & E2).
  assert (value_of k (sh_iter s) = None) as Hv by (apply value_none; by eapply gone_shard).
  destruct (items_split c _ s Hs) as (rest & H1 & H2). pose proof (sk_does _ _ _ _ Hok) as Hd.
  assert (∃ kp es rs rs', keqb P k kp = true ∧ loads (sh_capacity s) (sh_target_hot s) rs (sh_iter s) kp v es rs' (sh_iter s') ∧ hooks_of o = es) as
    (kp & es & rs & rs' & Hkp & Hl & Hes).
  { destruct Hm as [[rs ->]|(rs & wl & ->)]; simpl in Hd; rewrite Hv in Hd; simpl in Hd.
    - destruct Hd as (es & rs' & Hl & ->). exists k, es, rs, rs'. rewrite hooks_of_reply. split_and!; try done. apply (keqb_refl _ LW).
    - destruct Hd as (kp & es & rs' & Hkp & Hl & ->). exists kp, es, rs, rs'. rewrite hooks_of_reply. done. }
  exists kp. split; [done|]. rewrite Hes. eapply explains_perm_l; [by rewrite H1|]. eapply explains_perm_r; [|symmetry; apply H2].
  apply (explains_frame ((kp, v) :: sh_iter s)). by eapply loads_explains.
Qed.
Print Assumptions C29_load_conserves.

(* C09 for the whole cache *)
Theorem C29_pinned_and_weightless_stay : ∀ (P : Params), Lawful P → ptr_ids P = true →
  ∀ budget ghosts cap e (h : list (scmd P)) os c m c' o k v,
  s_history budget ghosts cap e h os c → api m → sc_exec c m = Ok (c', o) →
  (k, v) ∈ sc_items c → spares (as_cmd m) k v → weight P k v = 0%N ∨ pinned P k v = true →
  (k, v) ∈ sc_items c'.
Proof.
  intros P LW PI budget ghosts cap e h os c m c' o k v H Hm He Hin Hsp Hz.
  destruct (s_history_step LW PI _ _ _ _ _ _ _ _ _ _ H Hm He) as (HS & [A B C] & HS').
  apply items_elem in Hin as (j & s & Hs & Hin).
  destruct (lookup_lt_is_Some_2 (sc_shards c') j) as [s' Hs']; [rewrite B; by eapply lookup_lt_Some|].
  apply items_elem. exists j, s'. split; [done|]. destruct (C _ _ Hs') as (s2 & Hs2 & _ & Hok). rewrite Hs in Hs2. injection Hs2 as <-.
  case_decide; [|by subst]. destruct (s_does_does LW _ _ _ _ _ _ (sk_does _ _ _ _ Hok)) as (o' & Hd & _). by eapply does_stay.
Qed.
Print Assumptions C29_pinned_and_weightless_stay.
Theorem C29_hooks_spare_pinned_and_weightless : ∀ (P : Params), Lawful P → ptr_ids P = true →
  ∀ budget ghosts cap e (h : list (scmd P)) os c m c' o,
  s_history budget ghosts cap e h os c → api m → sc_exec c m = Ok (c', o) →
  (∀ k v v', EvBefore k v v' ∈ hooks_of o → pinned P k v = false ∧ weight P k v ≠ 0%N) ∧
  (∀ k v, EvEvict k v ∈ hooks_of o →
     (∃ k0 v0, written (as_cmd m) = Some (k0, v0) ∧ keqb P k0 k = true) ∨ ∃ v1, EvBefore k v1 v ∈ hooks_of o).
Proof.
  intros P LW PI budget ghosts cap e h os c m c' o H Hm He.
  destruct (s_key m) as [k|] eqn:Hk.
  - destruct (keyed_step LW PI _ _ _ _ _ _ _ _ k _ _ H Hm Hk He) as (s & s' & Hs & -> & _ & HI & Hok & E1 & E2).
    destruct (s_does_does LW _ _ _ _ _ _ (sk_does _ _ _ _ Hok)) as (o' & Hd & Hlog & _). rewrite <-(log_hooks _ _ Hlog).
    split; intros; [by eapply does_before|by eapply (does_evict LW)].
  - destruct m as [?|m|?|?]; try done. cbn [sc_exec] in He. destruct (on_all c (XCmd m)); simpl in He; [|done]. injection He as <- <-.
    split; intros ?; [intros ? ?|intros ?]; cbn; by intros ?%elem_of_nil.
Qed.
Print Assumptions C29_hooks_spare_pinned_and_weightless.

(* weight() never exceeds capacity() when nothing is pinned *)
Theorem C29_weight_within_capacity : ∀ (P : Params), Lawful P → ptr_ids P = true →
  ∀ budget ghosts cap e (h : list (scmd P)) os c total,
  (∀ k v, pinned P k v = false) → (budget ≤ cap)%N →
  s_history budget ghosts cap e h os c → sc_capacity c = Ok total →
  ∃ w, sc_weight c = Ok w ∧ (w ≤ total)%N.
Proof.
  intros P LW PI budget ghosts cap e h os c total Hp Hb H Ht. pose proof (s_history_SI LW PI _ _ _ _ _ _ _ H) as HS.
  unfold sc_capacity in Ht. rewrite sum64_eq in Ht. destruct (N.ltb_spec (foldr N.add 0%N (sh_capacity <$> sc_shards c)) two64) as [Hlt|]; [|done].
  injection Ht as <-. assert (wsum (sc_items c) ≤ foldr N.add 0%N (sh_capacity <$> sc_shards c))%N as Hle.
  { pose proof (items_uwsum LW PI _ _ _ _ _ _ _ H Hb) as Hu. unfold sc_items.
    assert (∀ s, s ∈ sc_shards c → (wsum (sh_iter s) ≤ sh_capacity s)%N) as Hall.
    { intros s [j Hs]%elem_of_list_lookup. destruct (s_history_cfg _ _ _ _ _ _ _ HS Hs) as (-> & _). rewrite <-uwsum_none by done. by eapply Hu. }
    clear -Hall. induction (sc_shards c) as [|s l IH]; csimpl; [done|]. rewrite wsum_app.
    assert (wsum (sh_iter s) ≤ sh_capacity s)%N by (apply Hall; left).
    assert (wsum (concat (sh_iter <$> l)) ≤ foldr N.add 0%N (sh_capacity <$> l))%N by (apply IH; intros; apply Hall; by right). lia. }
  exists (wsum (sc_items c)). split; [|done]. destruct (C29_len_weight_empty P LW PI _ _ _ _ _ _ _ H) as (_ & -> & _).
  destruct (N.ltb_spec (wsum (sc_items c)) two64); [done|lia].
Qed.
Print Assumptions C29_weight_within_capacity.

(* The theorems are about histories such as these, on two shards of capacity 14 with a hot
   budget of 10. *)
Example C29_example :
  s_history (P:=SH) 10 3 14 1 smixed (souts_of 10 3 14 1 smixed) (sstate_of 10 3 14 1 smixed) ∧
  map sh_iter (sc_shards (sstate_of 10 3 14 1 smixed)) = [[(100, 5); (12, 6)]; [(1, 4); (7, 5)]]%N ∧
  last (map hooks_of (souts_of 10 3 14 1 smixed)) = Some [EvBefore (P:=SH) 6 5 5; EvEvict (P:=SH) 6 5]%N.
Proof. split; [split; [apply smixed_api|vm_compute; done]|vm_compute; done]. Qed.
Example C29_example_weight :
  s_history (P:=SW) 10 3 14 1 splain (souts_of 10 3 14 1 splain) (sstate_of 10 3 14 1 splain) ∧
  sc_capacity (sstate_of 10 3 14 1 splain) = Ok 28%N ∧ sc_weight (sstate_of 10 3 14 1 splain) = Ok 19%N ∧
  sc_len (sstate_of 10 3 14 1 splain) = Ok 5%N.
Proof. split; [split; [apply splain_api|vm_compute; done]|vm_compute; done]. Qed.
