(* Property C54: panics in user code in the sync cache, used by one thread at a time. *)
From Verif Require Import Reach SeqProofs5 SyncCrashWit.

(* ---- C54 ---- *)
(* The program with the points and the locks is the program of C29. *)
Theorem C54_same_program : ∀ (P : Params), Lawful P → ptr_ids P = true → ∀ std budget ghosts cap e,
  holds (pc_fresh budget ghosts cap e) (sc_fresh (P:=P) budget ghosts cap (2 ^ e)) ∧
  ∀ (h : list (scmd P)) os d c m, s_history budget ghosts cap e h os d → holds c d → api m →
  match sc_exec d m with
  | Ok (d', o) => ∃ c', (p_exec std c m).2 = Ok (c', o) ∧ holds c' d'
  | Fail f => (p_exec std c m).2 = Fail f
  end.
Proof.
  intros P LW PI std budget ghosts cap e. split.
  - split; [|by intros j x [-> _]%lookup_replicate]. unfold sc_fresh, pc_fresh. simpl. by rewrite fmap_replicate.
  - intros h os d c m H [-> Hc] Hm. pose proof (s_history_SI LW PI _ _ _ _ _ _ _ H) as HS.
    pose proof (er_cache std _ _ _ _ c m HS Hc Hm) as Hx. pose proof (sc_exec_spec LW PI _ _ _ _ _ _ HS Hm) as Hy.
    unfold under in Hx. destruct (sc_exec _ m) as [[d' o]|f].
    + destruct Hx as (c' & E & <- & Hc'). by exists c'.
    + destruct Hy as (k & s & _ & _ & Hf). by destruct f.
Qed.
Print Assumptions C54_same_program.
(* Whatever panicked before, every shard whose lock is not poisoned is consistent. *)
Theorem C54_shards_sound : ∀ (P : Params), Lawful P → ptr_ids P = true →
  ∀ std budget ghosts cap e h (c : pcache P) j x, lived std budget ghosts cap e h c →
  pc_shards c !! j = Some x → ps_poisoned x = false → let s := ps_shard x in
  sh_len s = N.of_nat (length (sh_iter s)) ∧
  sh_weight s = (if (wsum (sh_iter s) <? two64)%N then Ok (wsum (sh_iter s)) else Fail WeightOvf) ∧
  ukeys (sh_iter s) ∧ sh_capacity s = cap ∧
  (∀ k v, (k, v) ∈ sh_iter s → shard_idx (pc_mask c) k = j).
Proof.
  intros P LW PI std budget ghosts cap e h c j x H Hx Hp s. pose proof (lived_LI LW PI std _ _ _ _ _ _ H) as HL.
  destruct (li_live _ _ _ _ _ _ _ HL _ _ Hx Hp) as [(_ & HI & _) Hc]. destruct (cfg_parts _ _ _ _ Hc) as [Hcap _].
  split_and!; [by apply len_exact|by apply weight_exact|by apply inv_ukeys|done|]. intros k v. by eapply li_loc.
Qed.
Print Assumptions C54_shards_sound.
(* Every call that concerns no poisoned shard does what C29 says, or fails in the ways it always
   may: it never waits for a load that nobody will complete. Only, in place of loading a value it
   may return one that was left behind by a panic. *)
Theorem C54_calls : ∀ (P : Params), Lawful P → ptr_ids P = true →
  ∀ std budget ghosts cap e h (c : pcache P) m, lived std budget ghosts cap e h c → api m →
  match (p_exec std c m).2 with
  | Ok (c', o) => pc_mask c' = pc_mask c ∧ length (pc_shards c') = length (pc_shards c) ∧
      ∀ j x, pc_shards c !! j = Some x → ∃ x', pc_shards c' !! j = Some x' ∧
        (concerned (pc_mask c) m j → call_does cap budget h m o x x') ∧
        (¬ concerned (pc_mask c) m j → x' = x)
  | Fail f => ∃ j x, pc_shards c !! j = Some x ∧ concerned (pc_mask c) m j ∧
      if ps_poisoned x then f = Panic else
      f = SlabFull ∧ (two32 ≤ storage (ps_shard x) + 2)%N ∨
      f = WeightOvf ∧ may_overflow cap budget (sh_iter (ps_shard x)) (as_cmd m)
  end.
Proof.
  intros P LW PI std budget ghosts cap e h c m H Hm. pose proof (lived_LI LW PI std _ _ _ _ _ _ H) as HL.
  destruct (p_exec_spec LW PI std _ _ _ _ _ _ _ HL Hm) as [_ Hx]. destruct (p_exec std c m).2 as [[c' o]|f].
  - destruct Hx as (A & B & C). split; [done|]. split; [done|]. intros j x Hx. destruct (C j x Hx) as (x' & Hx' & Hk). exists x'. split; [done|].
    split; intros Hc; [rewrite decide_True in Hk by done|by rewrite decide_False in Hk].
    destruct Hk as [Hp Hk]. destruct (li_live _ _ _ _ _ _ _ HL _ _ Hx Hp) as [_ Hcf]. by eapply ret_does.
  - destruct Hx as (j & x & Hx & Hc & Hf). exists j, x. split; [done|]. split; [done|]. destruct (ps_poisoned x) eqn:Hp; [done|].
    destruct (li_live _ _ _ _ _ _ _ HL _ _ Hx Hp) as [_ Hcf]. destruct (cfg_parts _ _ _ _ Hcf) as [E1 E2].
    destruct f; simpl in Hf; try done; [left|right]; (split; [done|]).
    + pose proof (used_slots (ps_shard x)) as Hu. unfold slots in Hu. rewrite storage_slots. unfold slots. lia.
    + by rewrite E1, E2 in Hf.
Qed.
Print Assumptions C54_calls.
(* A call panics without a panic in user code exactly when it meets a poisoned shard; with the
   locks of parking_lot there is none. *)
Theorem C54_poisoned : ∀ (P : Params), Lawful P → ptr_ids P = true →
  ∀ std budget ghosts cap e h (c : pcache P), lived std budget ghosts cap e h c →
  (∀ m, api m → ((p_exec std c m).2 = Fail Panic ↔ ∃ j, concerned (pc_mask c) m j ∧ poisoned_at c j)) ∧
  (std = false → ∀ j, ¬ poisoned_at c j).
Proof.
  intros P LW PI std budget ghosts cap e h c H. pose proof (lived_LI LW PI std _ _ _ _ _ _ H) as HL. split.
  - intros m Hm. pose proof (C54_calls P LW PI _ _ _ _ _ _ _ _ H Hm) as Hx. split.
    + intros E. rewrite E in Hx. destruct Hx as (j & x & Hx & Hc & Hf). exists j. split; [done|]. exists x. split; [done|].
      destruct (ps_poisoned x); [done|]. by destruct Hf as [[? _]|[? _]].
    + intros (j & Hc & x & Hx' & Hp). destruct (p_exec std c m).2 as [[c' o]|f] eqn:E.
      * destruct Hx as (_ & _ & Hx). destruct (Hx j x Hx') as (x' & _ & Hd & _). destruct (Hd Hc) as [Hp' _]. congruence.
      * destruct Hx as (j' & x2 & Hx2 & Hc2 & Hf). f_equal. destruct (ps_poisoned x2) eqn:Hp2; [done|]. exfalso.
        unfold concerned in Hc, Hc2. destruct (s_key m) as [k|] eqn:Hk; [subst; congruence|].
        destruct m as [?|mc|?|?]; try done.
        destruct (at_shards_spec LW PI std _ _ _ _ _ _ mc HL Hm (length (pc_shards c)) 0 c) as [_ H2]; [done| |].
        { split_and!; [done|done|]. intros i y Hy. exists y. split; [done|]. by rewrite decide_False by lia. }
        unfold p_exec in E. simpl in E. unfold tbind in E. destruct (at_shards _ _ _ _).2 as [|f']; simpl in E; [done|].
        injection E as ->. destruct H2 as [-> _]. by destruct Hf as [[? _]|[? _]].
  - intros Hs j (x & Hx & Hp). pose proof (li_std _ _ _ _ _ _ _ HL Hs j x Hx). congruence.
Qed.
Print Assumptions C54_poisoned.
(* len(), weight() and is_empty() *)
Theorem C54_len_weight_empty : ∀ (P : Params), Lawful P → ptr_ids P = true →
  ∀ std budget ghosts cap e h (c : pcache P), lived std budget ghosts cap e h c →
  let items := concat ((λ x, sh_iter (ps_shard x)) <$> pc_shards c) in
  ((∃ j, poisoned_at c j) → p_observe c sc_len = Fail Panic ∧ p_observe c sc_weight = Fail Panic) ∧
  ((∀ j, ¬ poisoned_at c j) →
     p_observe c sc_len = (let n := N.of_nat (length items) in if (n <? two64)%N then Ok n else Fail WeightOvf) ∧
     p_observe c sc_weight = (let w := wsum items in if (w <? two64)%N then Ok w else Fail WeightOvf)) ∧
  (p_is_empty c = Ok true ↔ (∀ j, ¬ poisoned_at c j) ∧ items = []) ∧
  (p_is_empty c = Ok false → items ≠ []) ∧
  (∀ f, p_is_empty c = Fail f → ∃ j, poisoned_at c j).
Proof.
  intros P LW PI std budget ghosts cap e h c H items. pose proof (lived_LI LW PI std _ _ _ _ _ _ H) as HL.
  assert (existsb ps_poisoned (pc_shards c) = true ↔ ∃ j, poisoned_at c j) as Hex.
  { rewrite existsb_exists. split.
    - intros (x & Hin & Hp). apply elem_of_list_In, elem_of_list_lookup in Hin as [j Hj]. exists j, x. done.
    - intros (j & x & Hx & Hp). exists x. split; [|done]. apply elem_of_list_In, elem_of_list_lookup. eauto. }
  assert (∀ x, x ∈ pc_shards c → ps_poisoned x = false → Inv (ps_shard x)) as HI.
  { intros x [j Hj]%elem_of_list_lookup Hp. by destruct (li_live _ _ _ _ _ _ _ HL _ _ Hj Hp) as [(_ & ? & _) _]. }
  split_and!.
  - intros Hp. unfold p_observe. by rewrite (proj2 Hex Hp).
  - intros Hn. unfold p_observe. destruct (existsb _ _) eqn:E; [destruct (proj1 Hex eq_refl) as [j Hj]; by destruct (Hn j)|].
    assert (items = sc_items (SCache (ps_shard <$> pc_shards c) (pc_mask c))) as -> by (unfold items, sc_items; simpl; by rewrite <-list_fmap_compose).
    assert (∀ s, s ∈ ps_shard <$> pc_shards c → Inv s) as HI2.
    { intros s [x [-> Hx]]%elem_of_list_fmap. apply HI; [done|].
      destruct (ps_poisoned x) eqn:Hp; [|done]. apply elem_of_list_lookup in Hx as [j Hj]. destruct (Hn j). by exists x. }
    cbv zeta. split.
    + unfold sc_len. rewrite sum64_eq. unfold sc_items. by rewrite SyncSeq.items_length.
    + unfold sc_weight. by apply items_wsum.
  - clear Hex. unfold p_is_empty, items, poisoned_at. clear HL H items. induction (pc_shards c) as [|x l IH]; csimpl.
    { split; [|done]. intros _. split; [|done]. intros j (y & Hy & _). done. }
    assert ((∀ j, ¬ ∃ y, (x :: l) !! j = Some y ∧ ps_poisoned y = true) ↔ ps_poisoned x = false ∧ ∀ j, ¬ ∃ y, l !! j = Some y ∧ ps_poisoned y = true) as ->.
    { split.
      - intros Hn. split; [destruct (ps_poisoned x) eqn:Hp; [|done]; destruct (Hn 0); by exists x|]. intros j Hj. by destruct (Hn (S j)).
      - intros [Hp Hn] [|j] (y & Hy & Hpy); simpl in Hy; [simplify_eq; congruence|]. destruct (Hn j). by exists y. }
    destruct (ps_poisoned x) eqn:Hp; [naive_solver|]. specialize (IH ltac:(intros; apply HI; [by right|done])).
    rewrite (len_exact (ps_shard x)) by (apply HI; [left|done]). destruct (sh_iter (ps_shard x)) as [|a l0]; simpl.
    + rewrite IH. naive_solver.
    + split; [done|]. intros [_ ?]. done.
  - unfold p_is_empty, items. clear HL H items Hex. induction (pc_shards c) as [|x l IH]; csimpl; [done|].
    destruct (ps_poisoned x) eqn:Hp; [done|]. rewrite (len_exact (ps_shard x)) by (apply HI; [left|done]).
    destruct (sh_iter (ps_shard x)) as [|a l0]; simpl; [|done]. apply IH. intros; apply HI; [by right|done].
  - intros f Hf. apply Hex. unfold p_is_empty in Hf. clear -Hf. induction (pc_shards c) as [|x l IH]; simpl in *; [done|].
    destruct (ps_poisoned x); [done|]. destruct (_ =? _)%N; [|done]. simpl. by apply IH.
Qed.
Print Assumptions C54_len_weight_empty.
(* What a call leaves behind that panicked. It panicked in one of the shards it concerns: there
   C45's statement about the contents holds, unless the lock is poisoned now, which only a panic
   under the write lock of the standard library does, and every such panic does. A call on all
   shards has finished with the shards before, and not touched those after. *)
Theorem C54_panic : ∀ (P : Params), Lawful P → ptr_ids P = true →
  ∀ std budget ghosts cap e h (c : pcache P) m q c', lived std budget ghosts cap e h c → api m →
  p_panicked std c m q c' → std = true ∨ harmless_at q = true →
  pc_mask c' = pc_mask c ∧ length (pc_shards c') = length (pc_shards c) ∧
  ∃ j0, j0 < length (pc_shards c) ∧ concerned (pc_mask c) m j0 ∧
  ∀ j x, pc_shards c !! j = Some x → ∃ x', pc_shards c' !! j = Some x' ∧
    (j = j0 → panic_does std m q x x') ∧
    (j ≠ j0 → x' = x ∨ j < j0 ∧ s_key m = None ∧ call_does cap budget h m (plain RUnit) x x') ∧
    (j < j0 → s_key m = None → ps_poisoned x = false) ∧
    (j0 < j → x' = x).
Proof.
  intros P LW PI std budget ghosts cap e h c m q c' H Hm Hp Hok. pose proof (lived_LI LW PI std _ _ _ _ _ _ H) as HL.
  destruct (p_exec_spec LW PI std _ _ _ _ _ _ _ HL Hm) as [Hx _]. destruct (Hx q c' Hp Hok) as (A & B & j0 & Hlt & Hc & C).
  split; [done|]. split; [done|]. exists j0. split; [done|]. split; [done|]. intros j x Hj. destruct (C j x Hj) as (x' & Hx' & Hk).
  exists x'. split; [done|]. destruct (decide (j = j0)) as [->|Hne].
  - split_and!; [intros _; by eapply hit_does|lia..].
  - destruct (decide (concerns (pc_mask c) m j ∧ j < j0)) as [[Hc2 Hlt2]|Hn].
    + assert (s_key m = None) as Hnk.
      { unfold concerns in Hc, Hc2. destruct (s_key m); [congruence|done]. }
      pose proof Hk as [Hpx _]. destruct (li_live _ _ _ _ _ _ _ HL _ _ Hj Hpx) as [_ Hcf].
      split_and!; [done|intros _; right|done|lia]. split_and!; [done|done|by eapply ret_does].
    + split_and!; [done|by left| |done]. intros Hlt2 Hnk. destruct Hn. split; [|done]. unfold concerns. by rewrite Hnk.
Qed.
Print Assumptions C54_panic.
(* The value that is left behind is a real one: get() misses and the pair is not among the items,
   but get_value_or_guard() returns it without loading. So a caller of the two does not see one
   and the same cache after a panic of begin_request() under a guard. *)
Theorem C54_left_behind_refuted : ∃ (P : Params), Lawful P ∧ ptr_ids P = true ∧ ∀ std, ∃ h (c : pcache P) rs k v,
  lived std 10 3 14 1 h c ∧ (∀ m q, Panicked m q ∈ h → calm_at q = true) ∧ left_behind 10 h k v ∧
  (∀ j x v', pc_shards c !! j = Some x → (k, v') ∉ sh_iter (ps_shard x)) ∧
  (∃ c', (p_exec std c (SKey k (CGet k))).2 = Ok (c', plain (RVal None))) ∧
  (∃ c', (p_exec std c (SValueOrGuard rs k SDrop)).2 = Ok (c', plain (RVal (Some v)))).
Proof.
  exists SW. split; [exact lawSW|]. split; [done|]. intros std. destruct (behind_run std) as (c & Hl & Hi & Hg & Hv).
  exists (behind_hist ++ [Panicked behind_call (SP PBegin)]), c, 0%N, 11%N, 4%N. split_and!; [done| | | |done|done].
  - intros m q Hin. unfold behind_hist in Hin.
    repeat (apply elem_of_cons in Hin as [Hin|Hin]; [first [discriminate|by injection Hin as -> ->]|]); by apply elem_of_nil in Hin.
  - exists behind_hist, behind_call, 11%N, []. split_and!; [done|done|done|]. by intros ?? ?%elem_of_nil.
  - intros j x v' Hx Hin. rewrite forallb_forall in Hi. specialize (Hi x). rewrite forallb_forall in Hi.
    specialize (Hi ltac:(apply elem_of_list_In, elem_of_list_lookup; eauto) (11%N, v') ltac:(by apply elem_of_list_In)). done.
Qed.
Print Assumptions C54_left_behind_refuted.
(* No call has undefined behaviour, whatever the state of the cache. *)
Theorem C54_no_undefined_behaviour : ∀ (P : Params) std (c : pcache P) m, api m → (p_exec std c m).2 ≠ Fail UB.
Proof. intros. by apply safe_p_exec. Qed.
Print Assumptions C54_no_undefined_behaviour.

(* Histories that meet the hypotheses, on two shards: with the standard locks, after a panic under
   the write lock the second shard is poisoned and the first works on ... *)
Definition C54_std : list (scmd SH * option spoint) := ((λ m, (m, None)) <$> smixed) ++
  [ (SKey (P:=SH) 1 (CRemove (P:=SH) 1), Some (SP PRemove)); (SKey (P:=SH) 12 (CGet (P:=SH) 12), None);
    (SKey (P:=SH) 7 (CGet (P:=SH) 7), Some SPoisoned); (SAll (P:=SH) (CReserve (P:=SH)), Some SPoisoned);
    (sins (P:=SH) 0 2 3, None) ]%N.
(* ... with those of parking_lot, after panics in every kind of user code nothing is lost. *)
Definition C54_parking : list (scmd SH * option spoint) := ((λ m, (m, None)) <$> smixed) ++
  [ (sins (P:=SH) 0 20 9, Some (SP PWeigh)); (SGetOrInsert (P:=SH) 0 20 (Some 3), Some (SP PLoader));
    (SAll (P:=SH) (CRetain (P:=SH) (λ _ _, false)), Some (SP PRetain)); (SValueOrGuard (P:=SH) 0 9 (SInsert (P:=SH) 4 false), Some SClone);
    (SKey (P:=SH) 12 (CGet (P:=SH) 12), Some SClone); (SValueOrGuard (P:=SH) 0 9 (SInsert (P:=SH) 2 false), Some (SP PBegin));
    (SValueOrGuard (P:=SH) 0 9 (SDrop (P:=SH)), None); (SKey (P:=SH) 9 (CRemove (P:=SH) 9), None);
    (SValueOrGuard (P:=SH) 0 9 (SDrop (P:=SH)), None) ]%N.
Definition C54_hist (std : bool) l : list (pevent SH) := from_option fst [] (p_run std (pc_fresh 10 3 14 1) l).
Definition C54_cache (std : bool) l : pcache SH := from_option snd (pc_fresh 10 3 14 1) (p_run std (pc_fresh 10 3 14 1) l).
Lemma C54_lived std l : p_ok std l → p_run std (pc_fresh (P:=SH) 10 3 14 1) l ≠ None →
  lived std 10 3 14 1 (C54_hist std l) (C54_cache std l).
Proof.
  unfold C54_hist, C54_cache. destruct (p_run _ _ l) as [[h c]|] eqn:E; [|done]. intros Hok _.
  eapply (p_run_lived std _ _ _ _ l []); [constructor|done|done].
Qed.
Lemma C54_ok std l l' : l = ((λ m, (m, None)) <$> smixed) ++ l' → p_ok std l' → p_ok std l.
Proof.
  intros -> H. apply Forall_app. split; [|done]. apply Forall_fmap. eapply Forall_impl; [apply smixed_api|]. simpl. done.
Qed.
Example C54_example_std :
  lived true 10 3 14 1 (C54_hist true C54_std) (C54_cache true C54_std) ∧ length (C54_hist true C54_std) = length C54_std ∧
  map (λ x, (ps_poisoned x, sh_iter (ps_shard x))) (pc_shards (C54_cache true C54_std)) =
    [(false, [(2, 3); (100, 5); (12, 6)]); (true, [(7, 5)])]%N.
Proof.
  split; [|split; vm_compute; reflexivity]. apply C54_lived; [|vm_compute; discriminate]. eapply C54_ok; [done|].
  repeat (apply Forall_cons; split; [split; simpl; eauto 6|]). by apply Forall_nil.
Qed.
Example C54_example_parking :
  lived false 10 3 14 1 (C54_hist false C54_parking) (C54_cache false C54_parking) ∧
  length (C54_hist false C54_parking) = length C54_parking ∧
  map (λ x, (ps_poisoned x, sh_iter (ps_shard x))) (pc_shards (C54_cache false C54_parking)) =
    [(false, [(100, 5); (12, 6)]); (false, [(1, 4); (7, 5)])]%N ∧
  map (λ ev, match ev with Returned _ o => Some (o_ret o) | Panicked _ _ => None end) (drop 20 (C54_hist false C54_parking)) =
    [None; Some (RVal (P:=SH) (Some 2)); Some (RPair None); Some RGuard]%N.
Proof.
  split; [|split_and!; vm_compute; reflexivity]. apply C54_lived; [|vm_compute; discriminate]. eapply C54_ok; [done|].
  repeat (apply Forall_cons; split; [split; simpl; eauto 6|]). by apply Forall_nil.
Qed.
