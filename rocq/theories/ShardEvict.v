(* Eviction: every part of the CLOCK-PRO machinery preserves the representation invariant and
   performs a sequence of evictions in the sense of Spec.evicts. *)
From Verif Require Export SpecProofs.

Section evict.
Context {P : Params} (LW : Lawful P).
Notation K := (K P). Notation V := (V P).
Notation entry := (entry P). Notation shard := (shard P). Notation resident := (resident P).
Implicit Types (s : shard) (l : lcs P) (e : entry) (r : resident) (its : list (option entry)) (rs : rid → list nat) (fl : list nat).

(* ---- shape of small updates ---- *)
Lemma its_set_entry s t e e0 : its_of s !! t = Some (Some e0) → its_of (set_entry s t e) = <[t := Some e]> (its_of s).
Proof. intros H. unfold its_of, set_entry; simpl. by apply (set_spec _ _ _ _ H). Qed.

Lemma length_its s : length (its_of s) = length (ents (sh_ents s)).
Proof. apply items_length. Qed.

Lemma inv_ring s rs fl t r : Inv' s rs fl → its_of s !! t = Some (Some (Resident r)) → rweight r ≠ 0%N →
  t ∈ rs (st_rid (r_state r)).
Proof.
  intros HI Ht Hw. apply (memb_cls _ _ _ _ _ (i_memb _ _ _ HI) Ht). by apply cls_nz.
Qed.
Lemma inv_noring s rs fl t e (r : rid) : Inv' s rs fl → its_of s !! t = Some (Some e) → cls e ≠ Some r → t ∉ rs r.
Proof. intros HI Ht Hw Hin. by apply (memb_cls _ _ _ _ _ (i_memb _ _ _ HI) Ht) in Hin. Qed.
Lemma inv_ring_hot s rs fl t : Inv' s rs fl → t ∈ rs RHot →
  ∃ r, its_of s !! t = Some (Some (Resident r)) ∧ r_state r = Hot ∧ rweight r ≠ 0%N.
Proof.
  intros HI Hin. apply (i_memb _ _ _ HI) in Hin as (e & He & Hc). destruct e as [r| |]; simpl in Hc; try done.
  destruct (N.eqb_spec (rweight r) 0); [done|]. exists r. split_and!; [done| |done]. by destruct (r_state r).
Qed.
Lemma inv_ring_cold s rs fl t : Inv' s rs fl → t ∈ rs RCold →
  ∃ r, its_of s !! t = Some (Some (Resident r)) ∧ r_state r = Cold ∧ rweight r ≠ 0%N.
Proof.
  intros HI Hin. apply (i_memb _ _ _ HI) in Hin as (e & He & Hc). destruct e as [r| |]; simpl in Hc; try done.
  destruct (N.eqb_spec (rweight r) 0); [done|]. exists r. split_and!; [done| |done]. by destruct (r_state r).
Qed.
Lemma inv_ring_ghost s rs fl t : Inv' s rs fl → t ∈ rs RGhost → ∃ h, its_of s !! t = Some (Some (Ghost h)).
Proof.
  intros HI Hin. apply (i_memb _ _ _ HI) in Hin as (e & He & Hc). destruct e as [r| |]; simpl in Hc; try done.
  - destruct (N.eqb_spec (rweight r) 0); [done|]. by destruct (r_state r).
  - eauto.
Qed.

(* ---- entries up to the reference counter ---- *)
Definition er e : entry := match e with Resident r => Resident (set_key_ref r 0) | _ => e end.
Definition ero (o : option entry) : option entry := er <$> o.
Definition erl its : list (option entry) := ero <$> its.
Definition refeq its its' : Prop := erl its = erl its'.
Global Instance refeq_equiv : Equivalence refeq.
Proof. unfold refeq. split; [done|by intros ??|intros ??? -> ->; done]. Qed.
Lemma refeq_insert its t r x :
  its !! t = Some (Some (Resident r)) → refeq its (<[t := Some (Resident (set_key_ref r x))]> its).
Proof.
  intros H. unfold refeq, erl. rewrite list_fmap_insert. symmetry. apply list_insert_id.
  rewrite list_lookup_fmap, H. done.
Qed.
Lemma esum_er f its : (∀ e, f (er e) = f e) → esum f (erl its) = esum f its.
Proof.
  intros Hf. induction its as [|[e|] its IH]; unfold esum in *; simpl; [done| |].
  - by rewrite Hf, IH.
  - by rewrite IH.
Qed.
Lemma esum_refeq f its its' : (∀ e, f (er e) = f e) → refeq its its' → esum f its = esum f its'.
Proof. intros Hf H. rewrite <-(esum_er f its), <-(esum_er f its') by done. by rewrite H. Qed.
Lemma kvs_er its : kvs (erl its) = kvs its.
Proof.
  induction its as [|o its IH]; [done|]. change (okv (ero o) ++ kvs (erl its) = okv o ++ kvs its).
  rewrite IH. by destruct o as [[| |]|].
Qed.
Lemma kvs_refeq its its' : refeq its its' → kvs its = kvs its'.
Proof. intros H. by rewrite <-(kvs_er its), <-(kvs_er its'), H. Qed.
Lemma refeq_lookup its its' t e : refeq its its' → its !! t = Some (Some e) → ∃ e', its' !! t = Some (Some e') ∧ er e = er e'.
Proof.
  intros H Ht. assert ((erl its) !! t = (erl its') !! t) as Hl by (by rewrite H).
  unfold erl in Hl. rewrite !list_lookup_fmap, Ht in Hl. simpl in Hl.
  destruct (its' !! t) as [[e'|]|]; simpl in Hl; try done. exists e'. split; [done|congruence].
Qed.
Lemma refeq_length its its' : refeq its its' → length its = length its'.
Proof. intros H. rewrite <-(fmap_length ero its). unfold refeq, erl in H. rewrite H. by rewrite fmap_length. Qed.

(* only reference counters changed *)
Definition refstep s s' : Prop := s' = set_ents s (sh_ents s') ∧ refeq (its_of s) (its_of s').
Lemma refstep_refl s : refstep s s.
Proof. split; [by destruct s|done]. Qed.
Lemma refstep_trans s1 s2 s3 : refstep s1 s2 → refstep s2 s3 → refstep s1 s3.
Proof. intros [H1 H2] [H3 H4]. split; [rewrite H3, H1; done|by etrans]. Qed.

Lemma ref_spec s rs fl t r x :
  Inv' s rs fl → its_of s !! t = Some (Some (Resident r)) →
  let s' := set_entry s t (Resident (set_key_ref r x)) in
  Inv' s' rs fl ∧ refstep s s'.
Proof.
  intros HI Ht s'.
  assert (its_of s' = <[t := Some (Resident (set_key_ref r x))]> (its_of s)) as Hits by (by eapply its_set_entry).
  assert (refeq (its_of s) (its_of s')) as Hr by (rewrite Hits; by apply refeq_insert).
  split; [|split; [done|done]].
  destruct (RI_set _ _ _ t (Resident (set_key_ref r x)) _ (i_ri _ _ _ HI) Ht) as [_ HRI].
  split.
  - apply HRI.
  - intros r0. rewrite <-(i_heads _ _ _ HI r0). by destruct r0.
  - rewrite Hits. eapply memb_insert; [apply HI|by eapply lookup_lt_Some|done|].
    intros r0. rewrite (memb_cls _ _ _ _ _ (i_memb _ _ _ HI) Ht). simpl. unfold rweight; simpl. naive_solver.
  - destruct (i_acc _ _ _ HI) as [Hw Hn Hg]. split; simpl.
    + intros st. rewrite <-(esum_refeq (wof st) _ _ ltac:(by intros []) Hr), <-Hw. by destruct st.
    + intros st. rewrite <-(esum_refeq (nof st) _ _ ltac:(by intros []) Hr), <-Hn. by destruct st.
    + rewrite <-(esum_refeq ghn _ _ ltac:(by intros []) Hr). apply Hg.
  - apply HI.
  - rewrite Hits. simpl. eapply (MI_set_res LW); [apply HI|done|done|done|done|by right].
Qed.

(* ---- what an eviction step may do ---- *)
Definition static s : N * N * N * N * N * N :=
  (sh_target_hot s, sh_capacity s, sh_cap_nr s, sh_hits s, sh_misses s, sh_nph s).
Definition one (e : entry) : N := 1.

Record ev_post s l s' l' : Prop := {
  ep_static : static s' = static s;
  ep_len : length (its_of s') = length (its_of s);
  ep_live : (esum one (its_of s') ≤ esum one (its_of s))%N;
  ep_ev : ∃ es, llog l' = llog l ++ es ∧ evicts (lrs l) (sh_iter s) es (lrs l') (sh_iter s');
  ep_ph : ∀ t p, its_of s' !! t = Some (Some (Placeholder p)) ↔ its_of s !! t = Some (Some (Placeholder p));
  ep_phm : ∀ t p, its_of s !! t = Some (Some (Placeholder p)) →
     t ∈ (tpairs (sh_map s')).*2 ↔ t ∈ (tpairs (sh_map s)).*2;
  ep_tok : ∀ t r', its_of s' !! t = Some (Some (Resident r')) →
     ∃ r, its_of s !! t = Some (Some (Resident r)) ∧ r_key r = r_key r';
}.
Lemma ev_refl s l : ev_post s l s l.
Proof. split; try done; [|by eauto]. exists []. rewrite app_nil_r. split; [done|]. apply evicts_refl. Qed.
Lemma ev_trans s1 l1 s2 l2 s3 l3 : ev_post s1 l1 s2 l2 → ev_post s2 l2 s3 l3 → ev_post s1 l1 s3 l3.
Proof.
  intros [A1 A2 A3 A4 A5 A6 A7] [B1 B2 B3 B4 B5 B6 B7]. split; try (by etrans); try congruence.
  - destruct A4 as (es & Hl & He), B4 as (es2 & Hl2 & He2). exists (es ++ es2). split.
    + rewrite Hl2, Hl. by rewrite (assoc_L (++)).
    + by eapply evicts_trans.
  - intros t p. by rewrite B5, A5.
  - intros t p Hp. rewrite (B6 t p), (A6 t p); [done|done|by apply A5].
  - intros t r' Hr. destruct (B7 _ _ Hr) as (r1 & H1 & E1). destruct (A7 _ _ H1) as (r2 & H2 & E2).
    exists r2. split; [done|congruence].
Qed.
Lemma refstep_ev s s' l : refstep s s' → ev_post s l s' l.
Proof.
  intros [H1 H2]. split.
  - by rewrite H1.
  - symmetry. by apply refeq_length.
  - rewrite (esum_refeq one _ _ ltac:(done) H2). done.
  - exists []. rewrite app_nil_r. split; [done|]. rewrite !sh_iter_kvs, (kvs_refeq _ _ H2). apply evicts_refl.
  - intros t p. split; intros Hp.
    + symmetry in H2. destruct (refeq_lookup _ _ _ _ H2 Hp) as ([] & ? & He); simpl in He; try done; congruence.
    + destruct (refeq_lookup _ _ _ _ H2 Hp) as ([] & ? & He); simpl in He; try done; congruence.
  - intros. by rewrite H1.
  - intros t r' Hr. symmetry in H2. destruct (refeq_lookup _ _ _ _ H2 Hr) as ([r0| |] & Hr0 & He); simpl in He; try done.
    exists r0. split; [done|]. destruct r', r0; unfold set_key_ref in He; simpl in *; congruence.
Qed.

(* a step at token t (holding e) that leaves o there *)
Lemma ev_step s l s' l' t e o es :
  static s' = static s → its_of s !! t = Some (Some e) → is_ph e = false →
  its_of s' = <[t := o]> (its_of s) →
  match o with
  | Some (Resident r') => match e with Resident r => r_key r = r_key r' | _ => False end
  | Some (Placeholder _) => False
  | _ => True
  end →
  (∀ t', t' ≠ t → t' ∈ (tpairs (sh_map s')).*2 ↔ t' ∈ (tpairs (sh_map s)).*2) →
  llog l' = llog l ++ es →
  evicts (lrs l) (okv (Some e) ++ kvs (<[t := None]> (its_of s))) es (lrs l') (okv o ++ kvs (<[t := None]> (its_of s))) →
  ev_post s l s' l'.
Proof.
  intros Hst Ht Hph Hits Ho Hm Hl Hev. split; [done| | | | | |].
  - by rewrite Hits, insert_length.
  - rewrite Hits, (esum_upd _ _ _ _ _ Ht). pose proof (esum_ge one _ _ _ Ht). destruct o; simpl; unfold one in *; lia.
  - exists es. split; [done|]. rewrite !sh_iter_kvs, Hits.
    eapply evicts_perm_l; [by apply kvs_split|]. eapply evicts_perm_r; [done|]. symmetry. by eapply kvs_insert.
  - intros t' p. rewrite Hits. destruct (decide (t' = t)) as [->|Hne].
    + rewrite list_lookup_insert by (by eapply lookup_lt_Some). rewrite Ht.
      split; intros H; by simplify_eq.
    + by rewrite list_lookup_insert_ne.
  - intros t' p Hp. apply Hm. intros ->. rewrite Ht in Hp. by simplify_eq.
  - intros t' r'. rewrite Hits. destruct (decide (t' = t)) as [->|Hne].
    + rewrite list_lookup_insert by (by eapply lookup_lt_Some). intros [= ->]. destruct e as [r| |]; try done. by exists r.
    + rewrite list_lookup_insert_ne by done. eauto.
Qed.

Definition nz (st : rstate) s : N := esum (nzn st) (its_of s).
Lemma nz_len s : (nz Hot s + nz Cold s ≤ N.of_nat (length (its_of s)))%N.
Proof.
  unfold nz. rewrite (esum_add _ _ (λ e, nzn Hot e + nzn Cold e)%N) by done.
  induction (its_of s) as [|o its IH]; [done|]. unfold esum in *; simpl.
  destruct o as [[[k v [] x]|p|h]|]; simpl; try lia; destruct (_ =? _)%N; lia.
Qed.

Lemma hot_evict_spec s l rs fl idx r A B :
  Inv' s rs fl → rs RHot = A ++ idx :: B → its_of s !! idx = Some (Some (Resident r)) → rpinned r = false →
  ∃ s' l', hot_evict s l idx r = Ok (s', l', true) ∧ Inv s' ∧ ev_post s l s' l' ∧
    (nz Hot s' + 1 = nz Hot s)%N ∧ nz Cold s' = nz Cold s.
Proof.
  intros HI HAB Ht Hpin.
  assert (idx ∈ rs RHot) as Hin by (rewrite HAB, elem_of_app, elem_of_cons; tauto).
  destruct (inv_ring_hot _ _ _ _ HI Hin) as (r0 & Ht0 & Hst & Hw).
  rewrite Ht in Ht0. simplify_eq.
  destruct r0 as [k v st x]; simpl in Hst; subst st. unfold rweight, rpinned in *; simpl in *.
  destruct (i_acc _ _ _ HI) as [Haw Han Hag].
  pose proof (Haw Hot) as HawH. pose proof (Han Hot) as HanH. simpl in HawH, HanH.
  pose proof (esum_ge (wof Hot) _ _ _ Ht) as Hge1. pose proof (esum_ge (nof Hot) _ _ _ Ht) as Hge2.
  pose proof (esum_ge (nzn Hot) _ _ _ Ht) as Hge3.
  simpl in Hge1, Hge2, Hge3. unfold rweight in Hge1, Hge3; simpl in Hge1, Hge3.
  destruct (N.eqb_spec (weight P k v) 0); [done|].
  unfold hot_evict, call_before. simpl. unfold sub_weight. simpl. unfold rweight; simpl.
  rewrite wsub_ok by lia. simpl.
  destruct (before_evict P (lrs l) k v) as [rs1 v'] eqn:Hbe. simpl.
  destruct (RI_set _ _ _ idx (Resident (Res k v' Hot x)) _ (i_ri _ _ _ HI) Ht) as [Hit HRI].
  unfold set_rval; simpl.
  destruct (N.eqb_spec (weight P k v') 0) as [Hz|Hz].
  - destruct (RI_unlink _ _ _ _ _ _ _ HRI HAB) as (sl' & Hun & Hit' & HRI').
    rewrite Hun. simpl. eexists _, _. split; [done|].
    match goal with |- Inv ?x ∧ _ => set (s' := x) end.
    assert (its_of s' = <[idx := Some (Resident (Res k v' Hot x))]> (its_of s)) as Hits.
    { unfold its_of, s'; simpl. by rewrite Hit', Hit. }
    split_and!.
    + exists (rupd rs RHot (B ++ A)), fl. split.
      * apply HRI'.
      * intros r0. pose proof (i_heads _ _ _ HI r0) as Hh.
        destruct r0; simpl in *; rewrite ?rupd_eq, ?rupd_ne by done; done.
      * rewrite Hits. eapply memb_insert; [apply HI|by eapply lookup_lt_Some| |].
        -- intros r t' Hne. apply rupd_elem_ne. rewrite HAB, !elem_of_app, elem_of_cons. tauto.
        -- intros r. assert (NoDup (A ++ idx :: B)) as Hnd by (rewrite <-HAB; by eapply RI_NoDup, HI).
           split.
           ++ intros Hc. exfalso. destruct (decide (r = RHot)) as [->|Hne].
              ** rewrite rupd_eq in Hc. rewrite Permutation_app_comm in Hnd. simpl in Hnd.
                 apply NoDup_cons in Hnd as [? ?]. done.
              ** rewrite rupd_ne in Hc by done. apply Hne. by eapply (ri_disj _ _ _ (i_ri _ _ _ HI)).
           ++ intros (e & He & Hc). simplify_eq. simpl in Hc. unfold rweight in Hc; simpl in Hc. by rewrite Hz in Hc.
      * rewrite Hits. pose proof (Haw Cold). pose proof (Han Cold). simpl in *. split.
        -- intros []; simpl; rewrite (esum_upd _ _ _ _ _ Ht); simpl; unfold rweight; simpl; lia.
        -- intros []; simpl; rewrite (esum_upd _ _ _ _ _ Ht); simpl; unfold rweight; simpl; lia.
        -- simpl; rewrite (esum_upd _ _ _ _ _ Ht); simpl; lia.
      * apply HI.
      * rewrite Hits. simpl. eapply (MI_set_res LW); [apply HI|done|done|done|done|by right].
    + eapply ev_step; [done|done|done|done|done|done|simpl; reflexivity|].
      simpl. eapply ev_keep; [done|done|done|done|done|]. apply evicts_refl.
    + unfold nz. rewrite Hits, (esum_upd _ _ _ _ _ Ht). simpl. unfold rweight; simpl. rewrite Hz.
      destruct (N.eqb_spec (weight P k v) 0); [done|]. simpl. lia.
    + unfold nz. rewrite Hits, (esum_upd _ _ _ _ _ Ht). simpl. lia.
  - unfold dec_num; simpl. rewrite wsub_ok by lia. simpl.
    destruct (RI_remove _ _ _ _ _ _ _ (Resident (Res k v' Hot x)) HRI HAB) as (sl' & Hrm & Hit' & HRI').
    { rewrite Hit. apply list_lookup_insert. by eapply lookup_lt_Some. }
    rewrite Hrm. simpl. rewrite (map_remove_spec LW).
    2:{ simpl. apply (m_all _ _ _ (i_map _ _ _ HI) _ _ Ht). done. }
    simpl. eexists _, _. split; [done|].
    match goal with |- Inv ?x ∧ _ => set (s' := x) end.
    assert (its_of s' = <[idx := None]> (its_of s)) as Hits.
    { unfold its_of, s'; simpl. by rewrite Hit', Hit, list_insert_insert. }
    split_and!.
    + exists (rupd rs RHot (B ++ A)), (idx :: fl). split.
      * apply HRI'.
      * intros r0. pose proof (i_heads _ _ _ HI r0) as Hh.
        destruct r0; simpl in *; rewrite ?rupd_eq, ?rupd_ne by done; done.
      * rewrite Hits. eapply memb_insert; [apply HI|by eapply lookup_lt_Some| |].
        -- intros r t' Hne. apply rupd_elem_ne. rewrite HAB, !elem_of_app, elem_of_cons. tauto.
        -- intros r. assert (NoDup (A ++ idx :: B)) as Hnd by (rewrite <-HAB; by eapply RI_NoDup, HI).
           split.
           ++ intros Hc. exfalso. destruct (decide (r = RHot)) as [->|Hne].
              ** rewrite rupd_eq in Hc. rewrite Permutation_app_comm in Hnd. simpl in Hnd.
                 apply NoDup_cons in Hnd as [? ?]. done.
              ** rewrite rupd_ne in Hc by done. apply Hne. by eapply (ri_disj _ _ _ (i_ri _ _ _ HI)).
           ++ by intros (e & He & Hc).
      * rewrite Hits. pose proof (Haw Cold). pose proof (Han Cold). simpl in *. split.
        -- intros []; simpl; rewrite (esum_upd _ _ _ _ _ Ht); simpl; unfold rweight; simpl; lia.
        -- intros []; simpl; rewrite (esum_upd _ _ _ _ _ Ht); simpl; unfold rweight; simpl; lia.
        -- simpl; rewrite (esum_upd _ _ _ _ _ Ht); simpl; lia.
      * apply HI.
      * rewrite Hits. simpl. apply MI_remove. apply HI.
    + eapply ev_step; [done|done|done|done|done| | |].
      * intros t' Hne. simpl. change (filter _ _) with (tpairs (tremove (sh_map s) idx)).
        rewrite elem_tremove_snd. tauto.
      * simpl. rewrite <-(assoc_L (++)). simpl. reflexivity.
      * simpl. eapply ev_drop; [done|done|done|done|done|]. apply evicts_refl.
    + unfold nz. rewrite Hits, (esum_upd _ _ _ _ _ Ht). simpl. unfold rweight; simpl.
      destruct (N.eqb_spec (weight P k v) 0); [done|]. simpl. lia.
    + unfold nz. rewrite Hits, (esum_upd _ _ _ _ _ Ht). simpl. lia.
Qed.

(* every evictable entry of state st is pinned *)
Definition allpin (st : rstate) s : Prop :=
  ∀ t r, its_of s !! t = Some (Some (Resident r)) → r_state r = st → rweight r ≠ 0%N → rpinned r = true.

Lemma allpin_refstep st s s' : refstep s s' → allpin st s → allpin st s'.
Proof.
  intros [_ Hr] Hp t r Ht Hst Hw. symmetry in Hr.
  destruct (refeq_lookup _ _ _ _ Hr Ht) as (e & He & Hee).
  destruct e as [r0| |]; simpl in Hee; try done.
  specialize (Hp t _ He). unfold rweight, rpinned in *.
  destruct r as [k v st0 x], r0 as [k0 v0 st1 x0]. unfold set_key_ref in Hee; simpl in *.
  injection Hee as -> -> ->. by apply Hp.
Qed.
Lemma nz_refstep st s s' : refstep s s' → nz st s' = nz st s.
Proof. intros [_ Hr]. unfold nz. symmetry. apply esum_refeq; [by intros []|done]. Qed.

(* outcome of one call of advance_hot *)
Definition hot_ok s l s' l' : Prop :=
  Inv s' ∧ ev_post s l s' l' ∧ (nz Hot s' + 1 = nz Hot s)%N ∧ nz Cold s' = nz Cold s.

Lemma hot_ok_refstep s0 s l s' l' : refstep s0 s → hot_ok s l s' l' → hot_ok s0 l s' l'.
Proof.
  intros Hr (H1 & H2 & H3 & H4). split_and!; [done| | |].
  - eapply ev_trans; [by apply refstep_ev|done].
  - by rewrite H3, (nz_refstep _ _ _ Hr).
  - by rewrite H4, (nz_refstep _ _ _ Hr).
Qed.

Lemma ring_neq_head (A : list nat) idx n B :
  NoDup (A ++ idx :: n :: B) → Some n ≠ head (A ++ idx :: n :: B).
Proof.
  intros Hnd. destruct A as [|a A]; simpl in *; intros [= ->].
  - apply NoDup_cons in Hnd as [H _]. apply H. left.
  - apply NoDup_cons in Hnd as [H _]. apply H. rewrite elem_of_app, !elem_of_cons. tauto.
Qed.

(* some entry of the ring is unpinned: it is evicted, or another one is *)
Lemma hot_loop_unpinned fuel : ∀ s l rs fl idx unp A B X u Y ru,
  Inv' s rs fl → rs RHot = A ++ idx :: B → (idx :: B) ++ A = X ++ u :: Y →
  its_of s !! u = Some (Some (Resident ru)) → rpinned ru = false →
  (unp = 0%N → ∃ Y', idx :: B = X ++ u :: Y') →
  length (rs RHot) * N.to_nat (N.min (r_ref ru) 2) + length X + 1 ≤ fuel →
  ∃ s' l', advance_hot_loop fuel s l idx unp = Ok (s', l', true) ∧ hot_ok s l s' l'.
Proof.
  induction fuel as [|fuel IH]; intros s l rs fl idx unp A B X u Y ru HI HAB HX Hu Hpu Hunp Hf; [lia|].
  assert (NoDup (rs RHot)) as Hnd by (by eapply RI_NoDup, HI).
  assert (idx ∈ rs RHot) as Hin by (rewrite HAB, elem_of_app, elem_of_cons; tauto).
  destruct (inv_ring_hot _ _ _ _ HI Hin) as (r & Ht & Hst & Hw).
  destruct (RI_get _ _ _ _ _ _ _ (i_ri _ _ _ HI) HAB) as (e & nx & Hg & He & Hnx).
  assert (e = Resident r) as -> by (unfold its_of in Ht; congruence). clear He.
  cbn [advance_hot_loop]. rewrite Hg. simpl. rewrite bool_decide_true by done. simpl.
  set (s1 := set_entry s idx (Resident (set_key_ref r (N.min (r_ref r) MAX_F - 1)))).
  destruct (ref_spec s rs fl idx r (N.min (r_ref r) MAX_F - 1) HI Ht) as [HI1 Hrs]. fold s1 in HI1, Hrs.
  assert (its_of s1 = <[idx := Some (Resident (set_key_ref r (N.min (r_ref r) MAX_F - 1)))]> (its_of s)) as Hits1
    by (by eapply its_set_entry).
  (* the continuation of the loop at nx, given that idx is not the witness or was decremented *)
  assert (∀ unp', (unp' = 0%N → unp = 0%N ∧ u ≠ idx) → (u = idx → r_ref r ≠ 0%N) →
    ∃ s' l', advance_hot_loop fuel s1 l nx unp' = Ok (s', l', true) ∧ hot_ok s l s' l') as Hcont.
  { intros unp' Hz Hui.
    assert (∃ A' B', rs RHot = A' ++ nx :: B' ∧ (nx :: B') ++ A' = (B ++ A) ++ [idx] ∧ (B ≠ [] → nx :: B' = B)) as (A' & B' & HAB' & Hrot & HBne).
    { destruct B as [|b B]; simpl in Hnx.
      - destruct A as [|a A]; simpl in Hnx; injection Hnx as ->.
        + exists [], []. rewrite HAB. done.
        + exists [], (A ++ [idx]). rewrite HAB. split_and!; [done| |done]. simpl. by rewrite app_nil_r.
      - injection Hnx as ->. exists (A ++ [idx]), B. rewrite HAB. split_and!; [by rewrite <-(assoc_L (++))| |done].
        simpl. by rewrite (assoc_L (++)). }
    destruct X as [|x X]; simpl in HX.
    - injection HX as -> HX. rewrite Ht in Hu. simplify_eq.
      assert (∃ s' l', advance_hot_loop fuel s1 l nx unp' = Ok (s', l', true) ∧ hot_ok s1 l s' l') as (s' & l' & ? & ?).
      { eapply (IH s1 l rs fl nx unp' A' B' (B ++ A) u []); [done|done|done| | | |].
        - rewrite Hits1. apply list_lookup_insert. by eapply lookup_lt_Some.
        - done.
        - intros ?. by destruct Hz.
        - simpl. simpl in Hf. specialize (Hui eq_refl).
          assert (length (rs RHot) = S (length (B ++ A))) as Hlen.
          { rewrite HAB, !app_length; simpl; lia. }
          unfold MAX_F. rewrite Hlen in *. clear -Hf Hui. set (m := length (B ++ A)) in *. clearbody m.
          assert (N.to_nat (N.min (r_ref ru) 2) = S (N.to_nat (N.min (N.min (r_ref ru) 2 - 1) 2))) as Heq by lia.
          rewrite Heq in Hf. nia. }
      exists s', l'. split; [done|]. by eapply hot_ok_refstep.
    - injection HX as -> HX.
      assert (u ≠ x) as Hux.
      { intros ->. rewrite HAB in Hnd. rewrite Permutation_app_comm in Hnd. simpl in Hnd. rewrite HX in Hnd.
        apply NoDup_cons in Hnd as [Hn _]. apply Hn. rewrite elem_of_app, elem_of_cons. tauto. }
      assert (∃ s' l', advance_hot_loop fuel s1 l nx unp' = Ok (s', l', true) ∧ hot_ok s1 l s' l') as (s' & l' & ? & ?).
      { eapply (IH s1 l rs fl nx unp' A' B' X u (Y ++ [x])); [done|done| | | | |].
        - rewrite Hrot, HX, <-(assoc_L (++)). done.
        - rewrite Hits1, list_lookup_insert_ne by done. done.
        - done.
        - intros Hu0. destruct Hz as [Hz _]; [done|]. destruct (Hunp Hz) as [Y' HY']. simpl in HY'.
          injection HY' as HY'. exists Y'. rewrite HBne; [done|]. rewrite HY'. by destruct X.
        - simpl in Hf. lia. }
      exists s', l'. split; [done|]. by eapply hot_ok_refstep. }
  destruct (rpinned r) eqn:Hp.
  - assert (u ≠ idx) as Hui by (intros ->; rewrite Ht in Hu; simplify_eq; congruence).
    destruct (N.eqb_spec unp 0) as [Hz|Hz]; simpl.
    + rewrite bool_decide_false; [apply Hcont; done|].
      destruct (Hunp Hz) as [Y' HY']. destruct X as [|x X]; simpl in HY'; injection HY' as -> HY'; [done|].
      rewrite HY' in *.
      assert (∃ b B', X ++ u :: Y' = b :: B') as (b & B' & HbB) by (destruct X; simpl; eauto).
      rewrite HbB in *. simpl in Hnx. injection Hnx as ->.
      pose proof (i_heads _ _ _ HI RHot) as Hh. simpl in Hh. rewrite Hh, HAB.
      apply ring_neq_head. by rewrite <-HAB.
    + apply Hcont; done.
  - destruct (N.eqb_spec (r_ref r) 0) as [Hz|Hz]; simpl.
    + apply (hot_evict_spec s l rs fl idx r A B); done.
    + apply Hcont; [lia|done].
Qed.

(* all entries of the ring are pinned: one lap, nothing happens *)
Lemma hot_loop_pinned fuel : ∀ s l rs fl idx A B,
  Inv' s rs fl → rs RHot = A ++ idx :: B →
  (∀ t r, t ∈ rs RHot → its_of s !! t = Some (Some (Resident r)) → rpinned r = true) →
  length (idx :: B) ≤ fuel →
  ∃ s', advance_hot_loop fuel s l idx 0 = Ok (s', l, false) ∧ Inv s' ∧ refstep s s'.
Proof.
  induction fuel as [|fuel IH]; intros s l rs fl idx A B HI HAB Hall Hf; [simpl in Hf; lia|].
  assert (NoDup (rs RHot)) as Hnd by (by eapply RI_NoDup, HI).
  assert (idx ∈ rs RHot) as Hin by (rewrite HAB, elem_of_app, elem_of_cons; tauto).
  destruct (inv_ring_hot _ _ _ _ HI Hin) as (r & Ht & Hst & Hw).
  destruct (RI_get _ _ _ _ _ _ _ (i_ri _ _ _ HI) HAB) as (e & nx & Hg & He & Hnx).
  assert (e = Resident r) as -> by (unfold its_of in Ht; congruence). clear He.
  cbn [advance_hot_loop]. rewrite Hg. simpl. rewrite bool_decide_true by done. simpl.
  rewrite (Hall _ _ Hin Ht).
  set (s1 := set_entry s idx (Resident (set_key_ref r (N.min (r_ref r) MAX_F - 1)))).
  destruct (ref_spec s rs fl idx r (N.min (r_ref r) MAX_F - 1) HI Ht) as [HI1 Hrs]. fold s1 in HI1, Hrs.
  pose proof (i_heads _ _ _ HI RHot) as Hh. simpl in Hh. rewrite Hh, HAB.
  destruct B as [|b B].
  - rewrite bool_decide_true.
    + exists s1. split_and!; [done| |done]. by exists rs, fl.
    + rewrite Hnx. simpl. by destruct A.
  - simpl in Hnx. injection Hnx as ->. rewrite bool_decide_false.
    2:{ apply ring_neq_head. by rewrite <-HAB. }
    destruct (IH s1 l rs fl b (A ++ [idx]) B) as (s' & Hs' & HI' & Hr').
    + done.
    + rewrite <-(assoc_L (++)). done.
    + intros t r0 Hin0 Ht0. destruct Hrs as [_ Hrq]. symmetry in Hrq.
      destruct (refeq_lookup _ _ _ _ Hrq Ht0) as (e & He & Hee). destruct e as [r1| |]; simpl in Hee; try done.
      specialize (Hall _ _ Hin0 He). destruct r0, r1; unfold set_key_ref, rpinned in *; simpl in *; simplify_eq. done.
    + simpl in *. lia.
    + exists s'. split_and!; [done|done|]. by eapply refstep_trans.
Qed.

(* the number of members of a ring *)
Lemma ring_len s rs fl (r : rid) : Inv' s rs fl → length (rs r) ≤ length (its_of s).
Proof.
  intros HI. assert (NoDup (rs r)) as Hnd by (by eapply RI_NoDup, HI).
  rewrite <-(seq_length (length (its_of s)) 0). apply submseteq_length, NoDup_submseteq; [done|].
  intros t Hin. apply (i_memb _ _ _ HI) in Hin as (e & He & _). apply lookup_lt_Some in He.
  apply elem_of_seq. lia.
Qed.

Lemma advance_hot_spec s l : Inv s →
  ∃ s' l' b, advance_hot s l = Ok (s', l', b) ∧
    if b : bool then hot_ok s l s' l' else l' = l ∧ Inv s' ∧ refstep s s' ∧ allpin Hot s'.
Proof.
  intros (rs & fl & HI). unfold advance_hot.
  pose proof (i_heads _ _ _ HI RHot) as Hh. simpl in Hh. rewrite Hh.
  destruct (rs RHot) as [|idx B] eqn:HAB; simpl.
  - eexists _, _, false. split; [done|]. split_and!; [done|by exists rs, fl|apply refstep_refl|].
    intros t r Ht Hst Hw. exfalso. assert (t ∈ rs (st_rid (r_state r))) as Hin by (by eapply inv_ring).
    rewrite Hst in Hin. simpl in Hin. rewrite HAB in Hin. by apply elem_of_nil in Hin.
  - pose proof (ring_len _ _ _ RHot HI) as Hlen. rewrite HAB in Hlen. rewrite length_its in Hlen.
    set (unp := λ t, ∃ r, its_of s !! t = Some (Some (Resident r)) ∧ rpinned r = false).
    assert (∀ t, Decision (unp t)) as Hdec.
    { intros t. unfold unp. destruct (its_of s !! t) as [[[r| |]|]|]; try (right; by intros (? & ? & ?)).
      destruct (rpinned r) eqn:Hp; [right|left; eauto]. intros (r' & ? & ?). simplify_eq. congruence. }
    destruct (decide (Exists unp (rs RHot))) as [Hex|Hnex].
    + apply Exists_exists in Hex as (u & Hin & ru & Hu & Hpu).
      rewrite HAB in Hin. apply elem_of_list_split in Hin as (X & Y & HXY).
      destruct (hot_loop_unpinned (3 * length (ents (sh_ents s)) + 1) s l rs fl idx 0 [] B X u Y ru) as (s' & l' & ? & ?);
        try done.
      * rewrite app_nil_r. done.
      * intros _. by exists Y.
      * rewrite HAB. assert (length (X ++ u :: Y) = length (idx :: B)) as HL by (by rewrite HXY).
        rewrite app_length in HL. simpl in *. clear -HL Hlen.
        assert (N.to_nat (N.min (r_ref ru) 2) ≤ 2) by lia. nia.
      * exists s', l', true. done.
    + destruct (hot_loop_pinned (3 * length (ents (sh_ents s)) + 1) s l rs fl idx [] B) as (s' & ? & HI' & Hr); try done.
      * intros t r Hin Ht. destruct (rpinned r) eqn:Hp; [done|]. exfalso. apply Hnex. apply Exists_exists.
        exists t. split; [done|]. by exists r.
      * simpl in *; lia.
      * exists s', l, false. split_and!; [done|done|done|done|].
        eapply allpin_refstep; [done|]. intros t r Ht Hst Hw.
        destruct (rpinned r) eqn:Hp; [done|]. exfalso. apply Hnex. apply Exists_exists. exists t. split; [|by exists r].
        change RHot with (st_rid Hot). rewrite <-Hst. by eapply inv_ring.
Qed.

Lemma trim_hot_spec fuel : ∀ s l, Inv s → (nz Hot s < N.of_nat fuel)%N →
  ∃ s' l', trim_hot fuel s l = Ok (s', l') ∧ Inv s' ∧ ev_post s l s' l' ∧
    (nz Hot s' ≤ nz Hot s)%N ∧ nz Cold s' = nz Cold s.
Proof.
  induction fuel as [|fuel IH]; intros s l HI Hf; [lia|]. simpl.
  destruct (sh_target_hot s <? a_weight (sh_hot s))%N.
  - destruct (advance_hot_spec s l HI) as (s1 & l1 & b & -> & Hb). simpl. destruct b.
    + destruct Hb as (HI1 & Hev & Hn & Hc).
      destruct (IH s1 l1 HI1 ltac:(lia)) as (s' & l' & -> & HI' & Hev' & Hn' & Hc').
      exists s', l'. split_and!; [done|done|by eapply ev_trans|lia|congruence].
    + destruct Hb as (-> & HI1 & Hr & _). exists s1, l. split_and!; [done|done|by apply refstep_ev| |].
      * by rewrite (nz_refstep _ _ _ Hr).
      * by rewrite (nz_refstep _ _ _ Hr).
  - exists s, l. split_and!; [done|done|apply ev_refl|lia|done].
Qed.


(* ---- membership when an entry leaves or changes ring ---- *)
Lemma memb_leave rs its (sl : slab entry) fl t (r : rid) A B o :
  memb rs its → RI sl rs fl → t < length its → rs r = A ++ t :: B →
  (∀ e, o = Some e → cls e = None) →
  memb (rupd rs r (B ++ A)) (<[t := o]> its).
Proof.
  intros Hm HRI Hlt HAB Ho. eapply memb_insert; [done|done| |].
  - intros r' t' Hne. apply rupd_elem_ne. rewrite HAB, !elem_of_app, elem_of_cons. tauto.
  - intros r'. assert (NoDup (A ++ t :: B)) as Hnd by (rewrite <-HAB; by eapply RI_NoDup).
    split.
    + intros Hc. exfalso. destruct (decide (r' = r)) as [->|Hne].
      * rewrite rupd_eq in Hc. rewrite Permutation_app_comm in Hnd. simpl in Hnd.
        apply NoDup_cons in Hnd as [? ?]. done.
      * rewrite rupd_ne in Hc by done. apply Hne. eapply (ri_disj _ _ _ HRI); [done|].
        rewrite HAB, elem_of_app, elem_of_cons. tauto.
    + intros (e & -> & Hc). specialize (Ho e eq_refl). congruence.
Qed.
Lemma memb_join rs its t (r : rid) e :
  memb rs its → t < length its → (∀ r' : rid, t ∉ rs r') → cls e = Some r →
  memb (rupd rs r (rs r ++ [t])) (<[t := Some e]> its).
Proof.
  intros Hm Hlt Hn Hc. eapply memb_insert; [done|done| |].
  - intros r' t' Hne. apply rupd_elem_ne. rewrite elem_of_app, elem_of_list_singleton. tauto.
  - intros r'. destruct (decide (r' = r)) as [->|Hne].
    + rewrite rupd_eq, elem_of_app, elem_of_list_singleton. naive_solver.
    + rewrite rupd_ne by done. split; [by intros ?%Hn|]. intros (e' & He & Hc'). simplify_eq.
Qed.
Lemma leave_notin rs (sl : slab entry) fl t (r : rid) A B : RI sl rs fl → rs r = A ++ t :: B → ∀ r' : rid, t ∉ rupd rs r (B ++ A) r'.
Proof.
  intros HRI HAB r' Hc. assert (NoDup (A ++ t :: B)) as Hnd by (rewrite <-HAB; by eapply RI_NoDup).
  destruct (decide (r' = r)) as [->|Hne].
  - rewrite rupd_eq in Hc. rewrite Permutation_app_comm in Hnd. simpl in Hnd.
    apply NoDup_cons in Hnd as [? ?]. done.
  - rewrite rupd_ne in Hc by done. apply Hne. eapply (ri_disj _ _ _ HRI); [done|].
    rewrite HAB, elem_of_app, elem_of_cons. tauto.
Qed.

(* ---- the invariant without the bound on ghosts ---- *)
Record Inv0 s rs fl : Prop := {
  j_ri : RI (sh_ents s) rs fl;
  j_heads : ∀ r : rid, heads s r = head (rs r);
  j_memb : memb rs (its_of s);
  j_acc : ACC s (its_of s);
  j_map : MI (tpairs (sh_map s)) (its_of s) (sh_nph s);
}.
Lemma Inv0_Inv s rs fl : Inv0 s rs fl → (sh_nnr s ≤ sh_cap_nr s)%N → Inv s.
Proof. intros [] ?. exists rs, fl. by split. Qed.
Lemma Inv_Inv0 s rs fl : Inv' s rs fl → Inv0 s rs fl.
Proof. intros []. by split. Qed.

Lemma advance_ghost_spec s l rs fl : Inv0 s rs fl → (0 < sh_nnr s)%N →
  ∃ s', advance_ghost s = Ok s' ∧ (∃ rs' fl', Inv0 s' rs' fl') ∧ ev_post s l s' l ∧
    sh_nnr s' = (sh_nnr s - 1)%N ∧ nz Hot s' = nz Hot s ∧ nz Cold s' = nz Cold s.
Proof.
  intros HI Hpos. destruct (j_acc _ _ _ HI) as [Haw Han Hag].
  unfold advance_ghost. destruct (N.eqb_spec (sh_nnr s) 0); [lia|]. simpl.
  pose proof (j_heads _ _ _ HI RGhost) as Hh. simpl in Hh. rewrite Hh.
  destruct (rs RGhost) as [|idx B] eqn:HAB.
  { exfalso. destruct (esum_pos ghn (its_of s)) as (t & e & Ht & Hg); [lia|].
    destruct e; simpl in Hg; try done. assert (t ∈ rs RGhost) as Hin by (apply (j_memb _ _ _ HI); eauto).
    rewrite HAB in Hin. by apply elem_of_nil in Hin. }
  simpl. assert (idx ∈ rs RGhost) as Hin by (rewrite HAB; left).
  apply (j_memb _ _ _ HI) in Hin as (e & Ht & Hc).
  assert (∃ h, e = Ghost h) as [h ->].
  { destruct e as [r0| |]; simpl in Hc; try done; [|eauto]. destruct (_ =? _)%N; [done|]. by destruct (r_state r0). }
  rewrite (entry_at_ok _ _ _ Ht). simpl. unfold dec_nnr. rewrite wsub_ok by lia. simpl.
  rewrite (map_remove_spec LW).
  2:{ simpl. apply (m_all _ _ _ (j_map _ _ _ HI) _ _ Ht). done. }
  simpl.
  destruct (RI_remove _ _ _ _ RGhost [] B _ (j_ri _ _ _ HI) HAB Ht) as (sl' & Hrm & Hit' & HRI').
  rewrite Hrm. simpl. eexists. split; [done|].
  match goal with |- context [ev_post s l ?x l] => set (s' := x) end.
  assert (its_of s' = <[idx := None]> (its_of s)) as Hits by done.
  pose proof (esum_ge ghn _ _ _ Ht) as Hge. simpl in Hge.
  split_and!.
  - exists (rupd rs RGhost (B ++ [])), (idx :: fl). split.
    + apply HRI'.
    + intros r0. pose proof (j_heads _ _ _ HI r0) as Hh0.
      destruct r0; simpl in *; rewrite ?rupd_eq, ?rupd_ne by done; done.
    + rewrite Hits. eapply memb_leave with (A := []); [apply HI|apply HI|by eapply lookup_lt_Some|done|done].
    + rewrite Hits. pose proof (Haw Hot). pose proof (Haw Cold). pose proof (Han Hot). pose proof (Han Cold).
      simpl in *. split.
      * intros []; simpl; rewrite (esum_upd _ _ _ _ _ Ht); simpl; lia.
      * intros []; simpl; rewrite (esum_upd _ _ _ _ _ Ht); simpl; lia.
      * simpl; rewrite (esum_upd _ _ _ _ _ Ht); simpl; lia.
    + rewrite Hits. simpl. apply MI_remove. apply HI.
  - eapply (ev_step s l s' l idx (Ghost h) None []); [done|done|done|done|done| | |].
    + intros t' Hne. simpl. change (filter _ _) with (tpairs (tremove (sh_map s) idx)).
      rewrite elem_tremove_snd. tauto.
    + by rewrite app_nil_r.
    + simpl. apply evicts_refl.
  - done.
  - unfold nz. rewrite Hits, (esum_upd _ _ _ _ _ Ht). simpl. lia.
  - unfold nz. rewrite Hits, (esum_upd _ _ _ _ _ Ht). simpl. lia.
Qed.

(* measure of the work left to advance_cold *)
Definition work s : N := 2 * nz Cold s + nz Hot s.

Definition cold_ok s l s' l' : Prop := Inv s' ∧ ev_post s l s' l' ∧ (work s' < work s)%N.

Lemma cold_evict_eq s l idx k v st x (rs1 : RS P) v' sl1 h sl2 g :
  before_evict P (lrs l) k v = (rs1, v') → weight P k v' ≠ 0%N →
  (weight P k v ≤ a_weight (sh_cold s))%N → (1 ≤ a_num (sh_cold s))%N →
  slab_unlink (slab_set (slab_set (sh_ents s) idx (Resident (Res k v' st x))) idx (Ghost (hash P k))) idx = Ok (sl1, h) →
  slab_link sl1 idx (sh_ghost_head s) = Ok (sl2, g) →
  let s2 := Shard (sh_map s) sl2 (sh_hot s) (Acct h (a_weight (sh_cold s) - weight P k v) (a_num (sh_cold s) - 1)) (Some g)
     (sh_target_hot s) (sh_capacity s) (sh_nnr s + 1) (sh_cap_nr s) (sh_hits s) (sh_misses s) (sh_nph s) in
  let l2 := Lcs (on_evict P rs1 k v') ((llog l ++ [EvBefore k v v']) ++ [EvEvict k v']) in
  cold_evict s l idx (Res k v st x) =
    (let! s3 := (if (sh_cap_nr s <? sh_nnr s + 1)%N then advance_ghost s2 else Ok s2) in Ok (s3, l2, true)).
Proof.
  intros Hb Hw Hle1 Hle2 Hun Hlk.
  destruct s as [m es hot [ch cw cn] gh th cap nnr capnr hits misses nph]; simpl in *.
  unfold cold_evict, call_before, sub_weight. simpl. unfold rweight, set_rval. simpl. rewrite wsub_ok by done. simpl.
  rewrite Hb. simpl. destruct (N.eqb_spec (weight P k v') 0); [done|].
  rewrite Hun. simpl. rewrite Hlk. simpl. unfold dec_num. simpl. rewrite wsub_ok by done. simpl. done.
Qed.

Lemma cold_evict_spec s l rs fl idx r A B :
  Inv' s rs fl → rs RCold = A ++ idx :: B → its_of s !! idx = Some (Some (Resident r)) → rpinned r = false →
  ∃ s' l', cold_evict s l idx r = Ok (s', l', true) ∧ cold_ok s l s' l'.
Proof.
  intros HI HAB Ht Hpin.
  assert (idx ∈ rs RCold) as Hin by (rewrite HAB, elem_of_app, elem_of_cons; tauto).
  destruct (inv_ring_cold _ _ _ _ HI Hin) as (r0 & Ht0 & Hst & Hw).
  rewrite Ht in Ht0. simplify_eq.
  destruct r0 as [k v st x]; simpl in Hst; subst st. unfold rweight, rpinned in *; simpl in *.
  destruct (i_acc _ _ _ HI) as [Haw Han Hag].
  pose proof (Haw Hot) as HawH. pose proof (Han Hot) as HanH. simpl in HawH, HanH.
  pose proof (Haw Cold) as HawC. pose proof (Han Cold) as HanC. simpl in HawC, HanC.
  pose proof (esum_ge (wof Cold) _ _ _ Ht) as Hge1. pose proof (esum_ge (nof Cold) _ _ _ Ht) as Hge2.
  pose proof (esum_ge (nzn Cold) _ _ _ Ht) as Hge3.
  simpl in Hge1, Hge2, Hge3. unfold rweight in Hge1, Hge3; simpl in Hge1, Hge3.
  destruct (N.eqb_spec (weight P k v) 0); [done|].
  assert (idx < length (its_of s)) as Hlt by (by eapply lookup_lt_Some).
  destruct (before_evict P (lrs l) k v) as [rs1 v'] eqn:Hbe.
  destruct (RI_set _ _ _ idx (Resident (Res k v' Cold x)) _ (i_ri _ _ _ HI) Ht) as [Hit HRI].
  destruct (N.eqb_spec (weight P k v') 0) as [Hz|Hz].
  - destruct (RI_unlink _ _ _ _ _ _ _ HRI HAB) as (sl' & Hun & Hit' & HRI').
    unfold cold_evict, call_before. simpl. unfold sub_weight. simpl. unfold rweight; simpl.
    rewrite wsub_ok by lia. simpl. rewrite Hbe. simpl. unfold set_rval; simpl.
    destruct (N.eqb_spec (weight P k v') 0); [|done].
    rewrite Hun. simpl. eexists _, _. split; [done|].
    match goal with |- cold_ok s l ?x _ => set (s' := x) end.
    assert (its_of s' = <[idx := Some (Resident (Res k v' Cold x))]> (its_of s)) as Hits.
    { unfold its_of, s'; simpl. by rewrite Hit', Hit. }
    split_and!.
    + exists (rupd rs RCold (B ++ A)), fl. split.
      * apply HRI'.
      * intros r0. pose proof (i_heads _ _ _ HI r0) as Hh0.
        destruct r0; simpl in *; rewrite ?rupd_eq, ?rupd_ne by done; done.
      * rewrite Hits. eapply memb_leave; [apply HI|apply HI|done|done|].
        intros e0 [= <-]. by apply cls_z.
      * rewrite Hits. split.
        -- intros []; simpl; rewrite (esum_upd _ _ _ _ _ Ht); simpl; unfold rweight; simpl; lia.
        -- intros []; simpl; rewrite (esum_upd _ _ _ _ _ Ht); simpl; unfold rweight; simpl; lia.
        -- simpl; rewrite (esum_upd _ _ _ _ _ Ht); simpl; lia.
      * apply HI.
      * rewrite Hits. simpl. eapply (MI_set_res LW); [apply HI|done|done|done|done|by right].
    + eapply ev_step; [done|done|done|done|done|done|simpl; reflexivity|].
      simpl. eapply ev_keep; [done|done|done|done|done|]. apply evicts_refl.
    + assert (nz Hot s' = nz Hot s ∧ nz Cold s' + 1 = nz Cold s)%N as [??]; [|unfold work; lia].
      unfold nz. rewrite Hits, !(esum_upd _ _ _ _ _ Ht). simpl. unfold rweight; simpl. rewrite Hz.
      destruct (N.eqb_spec (weight P k v) 0); [done|]. simpl. lia.
  - destruct (RI_set _ _ _ idx (Ghost (hash P k)) (Resident (Res k v' Cold x)) HRI) as [Hit2 HRI2].
    { rewrite Hit. by apply list_lookup_insert. }
    destruct (RI_unlink _ _ _ _ _ _ _ HRI2 HAB) as (sl' & Hun & Hit' & HRI').
    pose proof (i_heads _ _ _ HI RGhost) as HhG. simpl in HhG.
    destruct (RI_link sl' _ _ idx RGhost HRI') as (sl2 & Hlk & Hit3 & HRI3).
    { exists (Ghost (hash P k)). rewrite Hit', Hit2. apply list_lookup_insert. by rewrite Hit, insert_length. }
    { by eapply leave_notin. }
    rewrite rupd_ne in Hlk by done. rewrite <-HhG in Hlk.
    rewrite (cold_evict_eq s l idx k v Cold x rs1 v' sl' _ sl2 _ Hbe Hz ltac:(lia) ltac:(lia) Hun Hlk).
    match goal with |- context [advance_ghost ?x] => set (s2 := x) end.
    match goal with |- context [Lcs ?a ?b] => set (l3 := Lcs a b) end.
    assert (its_of s2 = <[idx := Some (Ghost (hash P k))]> (its_of s)) as Hits.
    { unfold its_of, s2; simpl. by rewrite Hit3, Hit', Hit2, Hit, list_insert_insert. }
    assert (Inv0 s2 (rupd (rupd rs RCold (B ++ A)) RGhost (rs RGhost ++ [idx])) fl) as HI2.
    { split.
      - rewrite rupd_ne in HRI3 by done. apply HRI3.
      - intros r0. pose proof (i_heads _ _ _ HI r0) as Hh0.
        destruct r0; simpl in *; [by rewrite !rupd_ne by done|by rewrite rupd_ne, rupd_eq by done|rewrite rupd_eq].
        rewrite Hh0. by destruct (rs RGhost).
      - rewrite Hits. rewrite <-(list_insert_insert (its_of s) idx _ None).
        replace (rs RGhost) with (rupd rs RCold (B ++ A) RGhost) by (by rewrite rupd_ne).
        apply memb_join; [|by rewrite insert_length| |done].
        + eapply memb_leave; [apply HI|apply HI|done|done|done].
        + eapply leave_notin; [apply HI|done].
      - rewrite Hits. split.
        + intros []; simpl; rewrite (esum_upd _ _ _ _ _ Ht); simpl; unfold rweight; simpl; lia.
        + intros []; simpl; rewrite (esum_upd _ _ _ _ _ Ht); simpl; unfold rweight; simpl; lia.
        + simpl; rewrite (esum_upd _ _ _ _ _ Ht); simpl; lia.
      - rewrite Hits. simpl. eapply (MI_set_res LW); [apply HI|done|done|done|done|by left]. }
    assert (ev_post s l s2 l3) as Hev.
    { eapply (ev_step s l s2 l3 idx); [done|done|done|done|done|done| |].
      - simpl. rewrite <-(assoc_L (++)). simpl. reflexivity.
      - simpl. eapply ev_drop; [done|done|done|done|done|]. apply evicts_refl. }
    assert (work s2 < work s)%N as Hwk.
    { assert (nz Hot s2 = nz Hot s ∧ nz Cold s2 + 1 = nz Cold s)%N as [??]; [|unfold work; lia].
      unfold nz. rewrite Hits, !(esum_upd _ _ _ _ _ Ht). simpl. unfold rweight; simpl.
      destruct (N.eqb_spec (weight P k v) 0); [done|]. lia. }
    assert (sh_cap_nr s2 = sh_cap_nr s) as Ecap by reflexivity.
    assert (sh_nnr s2 = sh_nnr s + 1)%N as Ennr by reflexivity.
    pose proof (i_ghost _ _ _ HI) as Hgb.
    clearbody s2 l3.
    destruct (N.ltb_spec (sh_cap_nr s) (sh_nnr s + 1)) as [Hov|Hov]; simpl.
    + destruct (advance_ghost_spec s2 l3 _ _ HI2) as (s3 & Hag3 & (rs3 & fl3 & HI3) & Hev3 & Hn3 & Hh3 & Hc3).
      { lia. }
      rewrite Hag3. simpl. eexists _, _. split; [done|]. split_and!.
      * eapply Inv0_Inv; [done|]. pose proof (ep_static _ _ _ _ Hev3) as Hs3. unfold static in Hs3.
        injection Hs3 as _ _ Hcap _ _ _. rewrite Hn3, Hcap. lia.
      * by eapply ev_trans.
      * unfold work in *. rewrite Hh3, Hc3. done.
    + eexists _, _. split; [done|]. split_and!; [|done|done]. eapply Inv0_Inv; [done|]. lia.
Qed.

Lemma wsum_total s : Inv s → wsum (sh_iter s) = (a_weight (sh_hot s) + a_weight (sh_cold s))%N.
Proof.
  intros (rs & fl & HI). rewrite sh_iter_kvs, wsum_esum.
  pose proof (acc_w _ _ (i_acc _ _ _ HI) Hot) as H1. pose proof (acc_w _ _ (i_acc _ _ _ HI) Cold) as H2.
  simpl in *. by rewrite H1, H2.
Qed.

Lemma cold_promote_eq s l idx k v st x sl1 h sl2 g :
  let w := weight P k v in
  (a_weight (sh_hot s) + w < two64)%N → (w ≤ a_weight (sh_cold s))%N → (1 ≤ a_num (sh_cold s))%N →
  slab_unlink (slab_set (sh_ents s) idx (Resident (Res k v Hot (x - 1)))) idx = Ok (sl1, h) →
  slab_link sl1 idx (a_head (sh_hot s)) = Ok (sl2, g) →
  let s2 := Shard (sh_map s) sl2 (Acct (Some g) (a_weight (sh_hot s) + w) (a_num (sh_hot s) + 1))
     (Acct h (a_weight (sh_cold s) - w) (a_num (sh_cold s) - 1)) (sh_ghost_head s)
     (sh_target_hot s) (sh_capacity s) (sh_nnr s) (sh_cap_nr s) (sh_hits s) (sh_misses s) (sh_nph s) in
  cold_promote s l idx (Res k v st x) =
    (let! (s3, l3) := trim_hot (length (ents (sh_ents s2)) + 1) s2 l in Ok (s3, l3, true)).
Proof.
  intros w Hovf Hle1 Hle2 Hun Hlk. subst w.
  destruct s as [m es [hh hw hn] [ch cw cn] gh th cap nnr capnr hits misses nph]; simpl in *.
  unfold cold_promote, add_weight, sub_weight, dec_num. simpl. unfold rweight, set_rstate, set_key_ref. simpl.
  rewrite wadd_ok by done. simpl. rewrite wsub_ok by done. simpl. rewrite wsub_ok by done. simpl.
  rewrite Hun. simpl. rewrite Hlk. simpl. done.
Qed.

Lemma cold_promote_spec s l rs fl idx r A B :
  Inv' s rs fl → rs RCold = A ++ idx :: B → its_of s !! idx = Some (Some (Resident r)) →
  (wsum (sh_iter s) < two64)%N →
  ∃ s' l', cold_promote s l idx r = Ok (s', l', true) ∧ cold_ok s l s' l'.
Proof.
  intros HI HAB Ht Hovf.
  rewrite wsum_total in Hovf by (by exists rs, fl).
  assert (idx ∈ rs RCold) as Hin by (rewrite HAB, elem_of_app, elem_of_cons; tauto).
  destruct (inv_ring_cold _ _ _ _ HI Hin) as (r0 & Ht0 & Hst & Hw).
  rewrite Ht in Ht0. simplify_eq.
  destruct r0 as [k v st x]; simpl in Hst; subst st. unfold rweight in *; simpl in *.
  destruct (i_acc _ _ _ HI) as [Haw Han Hag].
  pose proof (Haw Hot) as HawH. pose proof (Han Hot) as HanH. simpl in HawH, HanH.
  pose proof (Haw Cold) as HawC. pose proof (Han Cold) as HanC. simpl in HawC, HanC.
  pose proof (esum_ge (wof Cold) _ _ _ Ht) as Hge1. pose proof (esum_ge (nof Cold) _ _ _ Ht) as Hge2.
  pose proof (esum_ge (nzn Cold) _ _ _ Ht) as Hge3.
  simpl in Hge1, Hge2, Hge3. unfold rweight in Hge1, Hge3; simpl in Hge1, Hge3.
  destruct (N.eqb_spec (weight P k v) 0); [done|].
  assert (idx < length (its_of s)) as Hlt by (by eapply lookup_lt_Some).
  destruct (RI_set _ _ _ idx (Resident (Res k v Hot (x - 1))) _ (i_ri _ _ _ HI) Ht) as [Hit HRI].
  destruct (RI_unlink _ _ _ _ _ _ _ HRI HAB) as (sl' & Hun & Hit' & HRI').
  pose proof (i_heads _ _ _ HI RHot) as HhH. simpl in HhH.
  destruct (RI_link sl' _ _ idx RHot HRI') as (sl2 & Hlk & Hit3 & HRI3).
  { eexists. rewrite Hit', Hit. by apply list_lookup_insert. }
  { by eapply leave_notin. }
  rewrite rupd_ne in Hlk by done. rewrite <-HhH in Hlk.
  rewrite (cold_promote_eq s l idx k v Cold x sl' _ sl2 _ ltac:(lia) ltac:(lia) ltac:(lia) Hun Hlk).
  match goal with |- context [trim_hot _ ?x _] => set (s2 := x) end.
  assert (its_of s2 = <[idx := Some (Resident (Res k v Hot (x - 1)))]> (its_of s)) as Hits.
  { unfold its_of, s2; simpl. by rewrite Hit3, Hit', Hit. }
  assert (Inv s2) as HI2.
  { exists (rupd (rupd rs RCold (B ++ A)) RHot (rs RHot ++ [idx])), fl. split.
    - rewrite rupd_ne in HRI3 by done. apply HRI3.
    - intros r0. pose proof (i_heads _ _ _ HI r0) as Hh0.
      destruct r0; simpl in *; [rewrite rupd_eq|by rewrite rupd_ne, rupd_eq by done|by rewrite !rupd_ne by done].
      rewrite Hh0. by destruct (rs RHot).
    - rewrite Hits. rewrite <-(list_insert_insert (its_of s) idx _ None).
      replace (rs RHot) with (rupd rs RCold (B ++ A) RHot) by (by rewrite rupd_ne).
      apply memb_join; [|by rewrite insert_length| |].
      + eapply memb_leave; [apply HI|apply HI|done|done|done].
      + eapply leave_notin; [apply HI|done].
      + by apply (cls_nz (Res k v Hot (x - 1))).
    - rewrite Hits. split.
      + intros []; simpl; rewrite (esum_upd _ _ _ _ _ Ht); simpl; unfold rweight; simpl; lia.
      + intros []; simpl; rewrite (esum_upd _ _ _ _ _ Ht); simpl; unfold rweight; simpl; lia.
      + simpl; rewrite (esum_upd _ _ _ _ _ Ht); simpl; lia.
    - apply HI.
    - rewrite Hits. simpl. eapply (MI_set_res LW); [apply HI|done|done|done|done|by right]. }
  assert (ev_post s l s2 l) as Hev.
  { eapply (ev_step s l s2 l idx _ _ []); [done|done|done|done|done|done| |].
    - by rewrite app_nil_r.
    - simpl. apply evicts_refl. }
  assert (nz Hot s2 = nz Hot s + 1 ∧ nz Cold s2 + 1 = nz Cold s)%N as [HnH HnC].
  { unfold nz. rewrite Hits, !(esum_upd _ _ _ _ _ Ht). simpl. unfold rweight; simpl.
    destruct (N.eqb_spec (weight P k v) 0); [done|]. lia. }
  destruct (trim_hot_spec (length (ents (sh_ents s2)) + 1) s2 l HI2) as (s' & l' & Htr & HI' & Hev' & Hn' & Hc').
  { pose proof (nz_len s2). rewrite <-length_its. lia. }
  rewrite Htr. simpl. exists s', l'. split; [done|]. split; [done|]. split; [by eapply ev_trans|]. unfold work. lia.
Qed.

Definition cold_stop s l s' l' : Prop := l' = l ∧ Inv s' ∧ refstep s s' ∧ allpin Hot s' ∧ allpin Cold s'.

Lemma cold_loop_spec fuel : ∀ s l rs fl idx A B,
  Inv' s rs fl → rs RCold = A ++ idx :: B →
  (∀ t r, t ∈ A → its_of s !! t = Some (Some (Resident r)) → rpinned r = true) →
  length (idx :: B) ≤ fuel → (wsum (sh_iter s) < two64)%N →
  ∃ s' l' b, advance_cold_loop fuel s l idx = Ok (s', l', b) ∧
    if b : bool then cold_ok s l s' l' else cold_stop s l s' l'.
Proof.
  induction fuel as [|fuel IH]; intros s l rs fl idx A B HI HAB Hall Hf Hovf; [simpl in Hf; lia|].
  assert (NoDup (rs RCold)) as Hnd by (by eapply RI_NoDup, HI).
  assert (idx ∈ rs RCold) as Hin by (rewrite HAB, elem_of_app, elem_of_cons; tauto).
  destruct (inv_ring_cold _ _ _ _ HI Hin) as (r & Ht & Hst & Hw).
  destruct (RI_get _ _ _ _ _ _ _ (i_ri _ _ _ HI) HAB) as (e & nx & Hg & He & Hnx).
  assert (e = Resident r) as -> by (unfold its_of in Ht; congruence). clear He.
  cbn [advance_cold_loop]. rewrite Hg. simpl. rewrite bool_decide_true by done. simpl.
  destruct (N.eqb_spec (r_ref r) 0) as [Hz|Hz]; simpl.
  2:{ destruct (cold_promote_spec s l rs fl idx r A B) as (s' & l' & ? & ?); try done. by exists s', l', true. }
  destruct (rpinned r) eqn:Hp.
  2:{ destruct (cold_evict_spec s l rs fl idx r A B) as (s' & l' & ? & ?); try done. by exists s', l', true. }
  pose proof (i_heads _ _ _ HI RCold) as Hh. simpl in Hh. rewrite Hh, HAB.
  destruct B as [|b B].
  - rewrite bool_decide_true.
    2:{ rewrite Hnx. simpl. by destruct A. }
    destruct (advance_hot_spec s l) as (s' & l' & b & -> & Hb); [by exists rs, fl|].
    exists s', l', b. split; [done|]. destruct b.
    + destruct Hb as (H1 & H2 & H3 & H4). split_and!; [done|done|]. unfold work. lia.
    + destruct Hb as (H1 & H2 & H3 & H4). split_and!; [done|done|done|done|].
      eapply allpin_refstep; [done|]. intros t r0 Ht0 Hst0 Hw0.
      assert (t ∈ rs RCold) as Hin0.
      { change RCold with (st_rid Cold). rewrite <-Hst0. by eapply inv_ring. }
      rewrite HAB in Hin0. apply elem_of_app in Hin0 as [Hin0|Hin0]; [by eapply Hall|].
      apply elem_of_list_singleton in Hin0 as ->. rewrite Ht in Ht0. by simplify_eq.
  - simpl in Hnx. injection Hnx as ->. rewrite bool_decide_false.
    2:{ apply ring_neq_head. by rewrite <-HAB. }
    apply (IH s l rs fl b (A ++ [idx]) B); [done| | | |done].
    + rewrite <-(assoc_L (++)). done.
    + intros t r0 [Hin0|Hin0]%elem_of_app Ht0; [by eapply Hall|].
      apply elem_of_list_singleton in Hin0 as ->. rewrite Ht in Ht0. by simplify_eq.
    + simpl in *. lia.
Qed.

Lemma advance_cold_spec s l : Inv s → (wsum (sh_iter s) < two64)%N →
  ∃ s' l' b, advance_cold s l = Ok (s', l', b) ∧
    if b : bool then cold_ok s l s' l' else cold_stop s l s' l'.
Proof.
  intros (rs & fl & HI) Hovf. unfold advance_cold.
  pose proof (i_heads _ _ _ HI RCold) as Hh. simpl in Hh. rewrite Hh.
  destruct (rs RCold) as [|idx B] eqn:HAB; simpl.
  - destruct (advance_hot_spec s l) as (s' & l' & b & -> & Hb); [by exists rs, fl|].
    exists s', l', b. split; [done|]. destruct b.
    + destruct Hb as (H1 & H2 & H3 & H4). split_and!; [done|done|]. unfold work. lia.
    + destruct Hb as (H1 & H2 & H3 & H4). split_and!; [done|done|done|done|].
      eapply allpin_refstep; [done|]. intros t r0 Ht0 Hst0 Hw0. exfalso.
      assert (t ∈ rs RCold) as Hin0.
      { change RCold with (st_rid Cold). rewrite <-Hst0. by eapply inv_ring. }
      rewrite HAB in Hin0. by apply elem_of_nil in Hin0.
  - apply (cold_loop_spec _ s l rs fl idx [] B); [done|done| | |done].
    + intros t r Hin. by apply elem_of_nil in Hin.
    + pose proof (ring_len _ _ _ RCold HI) as Hl. rewrite HAB, length_its in Hl. lia.
Qed.

(* nothing is left to evict *)
Definition stuck s : Prop := all_pinned (sh_iter s).
Lemma allpin_stuck s : allpin Hot s → allpin Cold s → stuck s.
Proof.
  intros H1 H2 k v Hin Hw. rewrite sh_iter_kvs in Hin. apply kvs_elem in Hin as (t & r & Ht & <- & <-).
  destruct (r_state r) eqn:Hst; [by apply (H1 t r)|by apply (H2 t r)].
Qed.

Lemma evict_loop_spec fuel : ∀ s l extra, Inv s → (work s < N.of_nat fuel)%N →
  (wsum (sh_iter s) + extra < two64)%N →
  ∃ s' l', evict_loop fuel s l extra = Ok (s', l') ∧ Inv s' ∧ ev_post s l s' l' ∧
    ((wsum (sh_iter s') + extra ≤ sh_capacity s)%N ∨ stuck s') ∧
    ((wsum (sh_iter s) + extra ≤ sh_capacity s)%N → s' = s ∧ l' = l).
Proof.
  induction fuel as [|fuel IH]; intros s l extra HI Hf Hovf; [lia|]. simpl.
  rewrite wsum_total in Hovf by done. rewrite (wsum_total s HI).
  rewrite wadd_ok by lia. simpl. rewrite wadd_ok by lia. simpl.
  destruct (N.ltb_spec (sh_capacity s) (a_weight (sh_hot s) + a_weight (sh_cold s) + extra)) as [Hlt|Hle].
  - destruct (advance_cold_spec s l HI) as (s1 & l1 & b & -> & Hb).
    { rewrite wsum_total by done. lia. }
    simpl. destruct b.
    + destruct Hb as (HI1 & Hev & Hwk).
      destruct (ep_ev _ _ _ _ Hev) as (es & _ & He). apply evicts_wsum in He. rewrite (wsum_total s HI) in He.
      destruct (IH s1 l1 extra HI1) as (s' & l' & -> & HI' & Hev' & Hor & _); [lia|lia|].
      exists s', l'. split_and!; [done|done|by eapply ev_trans| |lia].
      pose proof (ep_static _ _ _ _ Hev) as Hs. unfold static in Hs. injection Hs as _ Hcap _ _ _ _. by rewrite <-Hcap.
    + destruct Hb as (-> & HI1 & Hr & Hp1 & Hp2). exists s1, l. split_and!; [done|done|by apply refstep_ev| |lia].
      right. by apply allpin_stuck.
  - exists s, l. split_and!; [done|done|apply ev_refl| |done]. left. rewrite wsum_total by done. done.
Qed.

Lemma evict_until_spec s l extra : Inv s → (wsum (sh_iter s) + extra < two64)%N →
  ∃ s' l', evict_until s l extra = Ok (s', l') ∧ Inv s' ∧ ev_post s l s' l' ∧
    ((wsum (sh_iter s') + extra ≤ sh_capacity s)%N ∨ stuck s') ∧
    ((wsum (sh_iter s) + extra ≤ sh_capacity s)%N → s' = s ∧ l' = l).
Proof.
  intros HI Hovf. apply evict_loop_spec; [done| |done].
  pose proof (nz_len s) as Hl. rewrite length_its in Hl. unfold work. lia.
Qed.
Lemma evict_until_ovf s l extra : Inv s → (two64 ≤ wsum (sh_iter s) + extra)%N →
  evict_until s l extra = Fail WeightOvf.
Proof.
  intros HI Hovf. rewrite wsum_total in Hovf by done. unfold evict_until.
  rewrite Nat.add_1_r. cbn [evict_loop]. unfold wadd at 1.
  destruct (N.ltb_spec (a_weight (sh_hot s) + a_weight (sh_cold s)) two64); simpl; [|done].
  unfold wadd. destruct (N.ltb_spec (a_weight (sh_hot s) + a_weight (sh_cold s) + extra) two64); simpl; [lia|done].
Qed.

End evict.
