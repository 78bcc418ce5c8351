(* insert/replace and the placeholder operations of a shard. *)
From Verif Require Export ShardSpecs.

Section insert.
Context {P : Params} (LW : Lawful P).
Notation K := (K P). Notation V := (V P).
Notation entry := (entry P). Notation shard := (shard P). Notation resident := (resident P).
Implicit Types (s : shard) (l : lcs P) (e : entry) (r : resident) (its : list (option entry)) (k : K) (v : V) (c : contents P)
  (rs : RS P) (fl : list nat) (sl : slab entry) (st : rstate).

(* ---- contents ---- *)
Lemma wsum_del k c : (wsum (del k c) ≤ wsum c)%N.
Proof.
  induction c as [|[k0 v0] c IH]; [done|].
  change (del k ((k0, v0) :: c)) with (if negb (keqb P k k0) then (k0, v0) :: del k c else del k c).
  rewrite wsum_cons. destruct (keqb P k k0); [|cbn [negb]; rewrite wsum_cons]; cbn [negb]; lia.
Qed.
Lemma wsum_ge k v c : (k, v) ∈ c → (weight P k v ≤ wsum c)%N.
Proof.
  induction c as [|[k0 v0] c IH]; [by intros ?%elem_of_nil|]. rewrite wsum_cons.
  intros [[= -> ->]|?%IH]%elem_of_cons; lia.
Qed.

(* ---- admission ---- *)
Definition admission_l (target : N) l k v : lcs P * V * N * bool :=
  if (target <? weight P k v)%N && negb (pinned P k v) then
    let '(l, value) := call_before l k v in
    (l, value, weight P k value, (target <? weight P k value)%N)
  else (l, v, weight P k v, false).
Lemma admission_eq target l k v :
  let '(rs1, es, v1, over) := admission target (lrs l) k v in
  admission_l target l k v = (Lcs rs1 (llog l ++ es), v1, weight P k v1, over).
Proof.
  unfold admission, admission_l, call_before. destruct (_ && _).
  - by destruct (before_evict P (lrs l) k v) as [rs1 v1].
  - rewrite app_nil_r. by destruct l.
Qed.

(* ---- the cases of insert_existing ---- *)
Definition finish s l : res (shard * lcs P * option (K * V)) :=
  let! (s, l) := evict_until s l 0 in Ok (s, l, None).
Lemma ie_res s l t key value w strat ev :
  entry_at s t = Ok (Resident ev) →
  insert_existing s l t key value w strat =
    (let! s1 := reweigh (set_entry s t (Resident (Res key value (r_state ev) (N.min (r_ref ev + (if is_soft strat then 0 else 1)) MAX_F))))
                  (r_state ev) t (rweight ev) w in
     finish s1 (call_evict l (r_key ev) (r_val ev))).
Proof.
  intros He. unfold insert_existing, reweigh, finish. rewrite He. simpl. rewrite bool_decide_true by done. simpl.
  destruct (sub_weight _ _ _) as [s1|]; [|done]. simpl. destruct (add_weight _ _ _) as [s2|]; [|done]. simpl.
  destruct (_ && _); [by destruct (link_back _ _ _)|].
  destruct (_ && _); [|done]. by destruct (slab_unlink _ _) as [[??]|].
Qed.
Lemma ie_none s l t key value w strat e :
  entry_at s t = Ok e → (∀ r, e ≠ Resident r) → is_replace strat = true →
  insert_existing s l t key value w strat = Ok (s, l, Some (key, value)).
Proof.
  intros He Hn Hr. unfold insert_existing. rewrite He. simpl. destruct e as [r|p|h]; [by destruct (Hn r)| |]; by rewrite Hr.
Qed.
Lemma ie_ghost s l t key value w strat h :
  entry_at s t = Ok (Ghost h) → is_replace strat = false →
  insert_existing s l t key value w strat =
    (let! s1 := enter_ghost (set_entry s t (Resident (Res key value Hot 0))) t w in finish s1 l).
Proof.
  intros He Hr. unfold insert_existing, enter_ghost, finish. rewrite He. simpl. rewrite Hr. simpl.
  destruct (add_weight _ _ _) as [s1|]; [|done]. simpl. destruct (dec_nnr _) as [s2|]; [|done]. simpl.
  destruct (slab_unlink _ _) as [[??]|]; [|done]. simpl. destruct (negb (w =? 0)%N); [|done].
  by destruct (link_back _ _ _).
Qed.
Lemma ie_ph s l t key value w strat p :
  entry_at s t = Ok (Placeholder p) → is_replace strat = false →
  insert_existing s l t key value w strat =
    (let! s1 := enter (set_entry s t (Resident (Res key value (p_hot p) 1))) (p_hot p) t w in finish s1 l).
Proof.
  intros He Hr. unfold insert_existing, enter, finish. rewrite He. simpl. rewrite Hr. simpl.
  destruct (add_weight _ _ _) as [s1|]; [|done]. simpl. destruct (negb (w =? 0)%N); [|done].
  by destruct (link_back _ _ _).
Qed.

Record done_ok s l s' l' c1 : Prop := {
  d_inv : Inv s';
  d_static : static s' = static s;
  d_ph : ∀ t, ph_at s' t = ph_at s t;
  d_slots : slots s' = slots s;
  d_used : (used s' ≤ used s)%N;
  d_tok : ∀ t r', its_of s' !! t = Some (Some (Resident r')) →
     ∃ r, its_of s !! t = Some (Some (Resident r)) ∧ r_key r = r_key r';
  d_ev : ∃ es, llog l' = llog l ++ es ∧ evicts (lrs l) c1 es (lrs l') (sh_iter s') ∧
     ((wsum (sh_iter s') ≤ sh_capacity s)%N ∨ all_pinned (sh_iter s')) ∧
     ((wsum c1 ≤ sh_capacity s)%N → es = []);
}.
Lemma ev_done s l s' l' : ev_post s l s' l' → Inv s' →
  (∀ t, ph_at s' t = ph_at s t) ∧ slots s' = slots s ∧ (used s' ≤ used s)%N.
Proof.
  intros Hp HI. split_and!.
  - intros t. by eapply ev_ph.
  - destruct Hp. unfold slots. by rewrite ep_len.
  - by destruct Hp.
Qed.
Lemma llog_nil l l' (es : list (event P)) : l' = l → llog l' = llog l ++ es → es = [].
Proof.
  intros -> H. destruct es as [|e es]; [done|]. exfalso.
  assert (length (llog l) = length (llog l ++ e :: es)) as Hl by (by rewrite <-H). rewrite app_length in Hl. simpl in Hl. lia.
Qed.
Lemma finish_spec (E : fail → Prop) s l c1 : Inv s → sh_iter s ≡ₚ c1 → ((two64 ≤ wsum c1)%N → E WeightOvf) →
  wp E (finish s l) (λ '(s', l', o), done_ok s l s' l' c1 ∧ o = None).
Proof.
  intros HI Hc HE. unfold finish. destruct (N.ltb_spec (wsum c1) two64) as [Hlt|Hge].
  2:{ rewrite (evict_until_ovf s l 0) by (try done; rewrite Hc; lia). simpl. auto. }
  destruct (evict_until_spec LW s l 0 HI) as (s' & l' & -> & HI' & Hp & Hfit & Hno).
  { rewrite Hc. lia. }
  simpl. split; [|done]. destruct (ev_done _ _ _ _ Hp HI') as (H1 & H2 & H3).
  split; try done; [apply Hp|apply Hp|]. destruct (ep_ev _ _ _ _ Hp) as (es & Hlog & Hev).
  exists es. split; [done|]. split; [by eapply evicts_perm_l|]. split.
  - rewrite N.add_0_r in Hfit. done.
  - intros Hle. eapply llog_nil; [|done]. apply Hno. rewrite Hc. lia.
Qed.
Lemma absent_reskey s k t e : Inv s → mapped s t → its_of s !! t = Some (Some e) → (∀ r, e ≠ Resident r) →
  (∀ k', ekey e = Some k' → keqb P k k' = true) → ekey e ≠ None → find_key k (sh_iter s) = None.
Proof.
  intros HI Hm Ht Hnr Hk Hne. apply find_key_None. intros [k' v'] Hin. apply iter_elem in Hin as (t' & r' & Ht' & <- & <-). simpl.
  destruct (keqb P k (r_key r')) eqn:Hk'; [|done]. exfalso. pose proof (res_mapped _ _ _ HI Ht') as Hm'.
  destruct (ekey e) as [k0|] eqn:He; [|done]. specialize (Hk _ eq_refl).
  assert (t = t') as ->.
  { destruct HI as (rs & fl & HI). eapply (m_uniq _ _ _ (i_map _ _ _ HI) t t'); [done|done|exact Ht|exact Ht'|done|done|].
    by rewrite <-(keqb_cong LW _ _ _ Hk). }
  rewrite Ht in Ht'. simplify_eq. by eapply Hnr.
Qed.

(* ---- handle_insert_overweight ---- *)
Lemma over_spec s l k v strat : Inv s →
  ∃ s' l' o, handle_insert_overweight s l (hash P k) k v strat = Ok (s', l', o) ∧
    Inv s' ∧ static s' = static s ∧ (∀ t, ph_at s' t = ph_at s t) ∧ slots s' = slots s ∧ (used s' ≤ used s)%N ∧
    sh_iter s' ≡ₚ del k (sh_iter s) ∧ o = (if is_replace strat then Some (k, v) else None) ∧
    ∃ l1, l1 = match find_key k (sh_iter s) with Some (ko, vo) => call_evict l ko vo | None => l end ∧
      l' = (if is_replace strat then l1 else call_evict l1 k v).
Proof.
  intros HI. unfold handle_insert_overweight.
  destruct (search_resident_spec LW s k HI) as ([[t r]|] & -> & Ho); simpl.
  - destruct Ho as (Ht & Hk & Hf). pose proof (res_mapped _ _ _ HI Ht) as Hm.
    destruct (remove_internal_spec LW s t _ HI Ht Hm) as (s' & Hrm & HI' & Hit & Hmap & Hst).
    simpl in Hrm. rewrite <-(hash_keqb _ LW _ _ Hk) in Hrm. rewrite Hrm. simpl.
    destruct (removed_facts s s' t _ HI Ht Hm Hit Hmap) as (Hph & Hsl & Hus).
    assert (∀ t', ph_at s' t' = ph_at s t') as Hph'.
    { intros t'. rewrite Hph. case_decide; [|done]. subst. unfold ph_at. by rewrite Ht. }
    assert (sh_iter s' ≡ₚ del k (sh_iter s)) as Hc.
    { rewrite sh_iter_kvs, Hit. by apply (del_kvs LW s t r). }
    rewrite Hf. destruct (is_replace strat); eexists _, _, _; (split; [done|]); split_and!; eauto; lia.
  - destruct Ho as (_ & Hf). rewrite Hf.
    assert (sh_iter s ≡ₚ del k (sh_iter s)) as Hc by (by rewrite del_none).
    destruct (is_replace strat); eexists _, _, _; (split; [done|]); split_and!; eauto.
Qed.

(* ---- insert ---- *)
Lemma wsum_acct s st : Inv s → (a_weight (sh_acct s st) ≤ wsum (sh_iter s))%N.
Proof. intros HI. rewrite (wsum_total s HI). destruct st; simpl; lia. Qed.

Definition new_entry s st key value (w h : N) l : res (shard * lcs P * option (K * V)) :=
  let! (s', _) := enter_new s st key value w h in Ok (s', l, None).
Lemma new_entry_eq s l st key value w h :
  (let s := inc_num s st in
   let! s := add_weight s st w in
   let! (es, idx) := slab_insert (sh_ents s) (Resident (Res key value st 0)) in
   let s := set_ents s es in
   let! s := (if negb (w =? 0)%N then link_back s st idx else Ok s) in
   let! s := map_insert s h idx in
   Ok (s, l, None)) = new_entry s st key value w h l.
Proof.
  unfold new_entry, enter_new. simpl. destruct (add_weight _ _ _) as [s1|]; [|done]. simpl.
  destruct (slab_insert _ _) as [[??]|]; [|done]. simpl.
  destruct (if negb (w =? 0)%N then link_back _ _ _ else Ok _) as [s2|]; [|done]. simpl.
  by destruct (map_insert _ _ _).
Qed.

Lemma absent_ev s l s' l' k : Inv s → Inv s' → ev_post s l s' l' → absent s k → absent s' k.
Proof.
  intros HI HI' Hp Ha t e k' Hm Ht He.
  destruct e as [r|p|h]; simplify_eq/=.
  - assert ((r_key r, r_val r) ∈ sh_iter s') as Hin by (apply iter_elem; eauto).
    destruct (ep_ev _ _ _ _ Hp) as (es & _ & Hev).
    assert (∀ (rs0 : RS P) c0 es0 rs0' c0' k0 v0, evicts (P:=P) rs0 c0 es0 rs0' c0' → (k0, v0) ∈ c0' → ∃ v1, (k0, v1) ∈ c0) as Hsub.
    { clear. intros rs0 c0 es0 rs0' c0' k0 v0 Hev Hin.
      induction Hev as [? c c' Hpm|? c k v rest ? v' ? ? c' Hpm _ _ _ _ _ IH|? c k v rest ? v' ? ? c' Hpm _ _ _ _ _ IH].
      - exists v0. by rewrite Hpm.
      - destruct (IH Hin) as [v1 [[= -> ->]|Hv]%elem_of_cons]; [exists v|exists v1]; rewrite Hpm; by constructor.
      - destruct (IH Hin) as [v1 Hv]. exists v1. rewrite Hpm. by constructor. }
    destruct (Hsub _ _ _ _ _ _ _ Hev Hin) as [v1 Hv1]. apply iter_elem in Hv1 as (t1 & r1 & Ht1 & Hk1 & _).
    rewrite <-Hk1. eapply Ha; [by eapply res_mapped|done|done].
  - pose proof (proj1 (ep_ph _ _ _ _ Hp _ _) Ht) as Ht0. pose proof (proj1 (ep_phm _ _ _ _ Hp _ _ Ht0) Hm) as Hm0.
    by eapply (Ha t).
Qed.

(* the hash table has no bucket for the hash of k *)
Definition untracked s k : Prop := ∀ t, (hash P k, t) ∉ tpairs (sh_map s).

Lemma sh_insert_spec (E : fail → Prop) s l k v strat :
  Inv s →
  (∀ rs1 es v1, admission (sh_target_hot s) (lrs l) k v = (rs1, es, v1, false) →
     (two64 ≤ wsum (sh_iter s) + weight P k v1)%N → E WeightOvf) →
  ((two32 ≤ used s + 2)%N → E SlabFull) →
  wp E (sh_insert s l (hash P k) k v strat) (λ '(s', l', o),
    Inv s' ∧ static s' = static s ∧
    (∃ es, llog l' = llog l ++ es ∧
       inserts (sh_capacity s) (sh_target_hot s) (negb (is_replace strat)) (lrs l) (sh_iter s) k v es (lrs l') (sh_iter s') o) ∧
    (∀ t, ph_at s' t = if (admission (sh_target_hot s) (lrs l) k v).2 || is_replace strat then ph_at s t else ph_del k (ph_at s t)) ∧
    slots_ok s s' ∧ (used s' ≤ used s + 1)%N ∧
    (untracked s k → (admission (sh_target_hot s) (lrs l) k v).2 = false → is_replace strat = false →
       (k, (admission (sh_target_hot s) (lrs l) k v).1.2) ∈ sh_iter s')).
Proof.
  intros HI HEw HEs. unfold sh_insert.
  pose proof (admission_eq (sh_target_hot s) l k v) as Had. unfold admission_l in Had.
  destruct (admission (sh_target_hot s) (lrs l) k v) as [[[rs1 es0] v1] over] eqn:Hadm. rewrite Had. clear Had.
  set (l1 := Lcs rs1 (llog l ++ es0)). simpl. destruct over; simpl.
  - (* refused *)
    destruct (over_spec s l1 k v1 strat HI) as (s' & l' & o & -> & HI' & Hst & Hph & Hsl & Hus & Hc & -> & l2 & Hl2 & Hl').
    simpl. split_and!; try done; [|unfold slots_ok; lia|lia].
    destruct (find_key k (sh_iter s)) as [[ko vo]|] eqn:Hf; subst l2.
    + exists (es0 ++ EvEvict ko vo :: (if negb (is_replace strat) then [EvEvict k v1] else [])). split.
      * subst l'. destruct (is_replace strat); simpl; by rewrite <-!(assoc_L (++)).
      * pose proof (ins_over_some _ (sh_capacity s) _ (negb (is_replace strat)) _ _ _ _ _ _ _ _ _ _ Hadm Hf Hc) as Hi.
        subst l'. by destruct (is_replace strat).
    + rewrite del_none in Hc by done.
      exists (es0 ++ (if negb (is_replace strat) then [EvEvict k v1] else [])). split.
      * subst l'. destruct (is_replace strat); simpl; [by rewrite app_nil_r|by rewrite <-!(assoc_L (++))].
      * pose proof (ins_over_none _ (sh_capacity s) _ (negb (is_replace strat)) _ _ _ _ _ _ _ _ Hadm Hf Hc) as Hi.
        subst l'. by destruct (is_replace strat).
  - specialize (HEw _ _ _ eq_refl).
    destruct (search_spec LW s k HI) as (o & -> & Ho). simpl.
    destruct Ho as [t e k' Hm Ht He Hk|t Hm Ht Ha|Ha Hg].
    + (* a resident or pending entry with an equal key *)
      assert (t < length (its_of s)) as Hlt by (by eapply lookup_lt_Some).
      assert ((hash P k, t) ∈ tpairs (sh_map s)) as Hbk.
      { rewrite <-(ekey_hash LW e k' k) by done. destruct HI as (rs & fl & HI). destruct (m_tok _ _ _ _ (i_map _ _ _ HI) Hm) as (e' & He' & Hin). rewrite Ht in He'. by injection He' as <-. }
      destruct e as [r|p|h]; simpl in He; [injection He as <-|injection He as <-|done].
      * (* resident *)
        rewrite (ie_res _ _ _ _ _ _ _ r) by (by apply entry_at_ok).
        set (r' := Res k v1 (r_state r) _).
        pose proof (reweigh_spec LW s t r r' HI Ht eq_refl (keqb_sym _ LW _ _ Hk)) as Hrw. simpl in Hrw.
        change (rweight r') with (weight P k v1) in Hrw.
        pose proof (find_iter LW s t r k HI Ht Hk) as Hf.
        destruct (N.ltb_spec (a_weight (sh_acct s (r_state r)) - rweight r + weight P k v1) two64) as [HW|HW].
        2:{ rewrite Hrw. simpl. apply HEw. pose proof (wsum_acct s (r_state r) HI). lia. }
        destruct Hrw as (s1 & -> & HI1 & Hit1 & Hm1 & Hst1). simpl.
        assert (sh_iter s1 ≡ₚ (k, v1) :: del k (sh_iter s)) as Hc1.
        { rewrite sh_iter_kvs, Hit1. etrans; [by apply (kvs_insert _ _ _ _ Ht)|]. simpl. f_equiv. by apply (del_kvs LW s t r). }
        assert (cfg s1 = cfg s) as Hcfg by (unfold static, cfg in *; by injection Hst1 as -> -> -> _ _ _).
        assert (∀ t', ph_at s1 t' = ph_at s t') as Hph1.
        { eapply ph_at_same; eauto. intros t' _. unfold mapped. by rewrite Hm1. }
        assert (slots s1 = slots s) as Hsl1 by (unfold slots; by rewrite Hit1, insert_length).
        assert (used s1 = used s) as Hus1.
        { unfold used. rewrite Hit1, (esum_upd _ _ _ _ _ Ht). simpl. pose proof (esum_ge one _ _ _ Ht). unfold one in *. lia. }
        eapply wp_mono.
        { apply (finish_spec E s1 (call_evict l1 (r_key r) (r_val r)) _ HI1 Hc1).
          intros Hge. rewrite wsum_cons in Hge. pose proof (wsum_del k (sh_iter s)). apply HEw. lia. }
        intros [[s' l'] o] [[HI' Hst' Hph' Hsl' Hus' Htok' (es & Hlog & Hev & Hfit & Hno)] ->].
        assert (sh_capacity s1 = sh_capacity s) as Hcap by (unfold cfg in Hcfg; congruence). rewrite Hcap in *.
        split_and!; [done|congruence| | |unfold slots_ok; lia|lia|by intros Hu; destruct (Hu t)].
        -- exists (es0 ++ EvEvict (r_key r) (r_val r) :: es). split; [|by eapply ins_replace].
           rewrite Hlog. simpl. by rewrite <-!(assoc_L (++)).
        -- intros t'. rewrite Hph', Hph1. destruct (is_replace strat); [done|]. by rewrite (ph_del_res LW s k t r).
      * (* pending *)
        assert (find_key k (sh_iter s) = None) as Hf.
        { eapply (absent_reskey s k t); [done|done|exact Ht|done| |done]. by intros k' [= <-]. }
        destruct (is_replace strat) eqn:Hrep.
        { rewrite (ie_none _ _ _ _ _ _ _ (Placeholder p)) by (try done; by apply entry_at_ok). simpl.
          split_and!; try done; [|unfold slots_ok; lia|lia]. exists es0. split; [done|]. by eapply ins_no_replace. }
        rewrite (ie_ph _ _ _ _ _ _ _ p) by (try done; by apply entry_at_ok).
        set (r' := Res k v1 (p_hot p) 1).
        destruct (N.ltb_spec (a_weight (sh_acct s (p_hot p)) + weight P k v1) two64) as [HW|HW].
        2:{ rewrite enter_ovf. { simpl. apply HEw. pose proof (wsum_acct s (p_hot p) HI). lia. } by destruct (p_hot p). }
        destruct (enter_ph_spec LW s t p r' HI Ht Hm (keqb_sym _ LW _ _ Hk) HW) as (s1 & Hen & HI1 & Hit1 & Hm1 & Hst1).
        simpl in Hen. change (rweight r') with (weight P k v1) in Hen. rewrite Hen. simpl.
        assert (sh_iter s1 ≡ₚ (k, v1) :: sh_iter s) as Hc1.
        { rewrite !sh_iter_kvs, Hit1. etrans; [by apply (kvs_insert _ _ _ _ Ht)|]. simpl. f_equiv.
          by rewrite (kvs_same _ _ _ None Ht). }
        assert (cfg s1 = cfg s) as Hcfg by (unfold static, cfg in *; by injection Hst1 as -> -> -> _ _ _).
        assert (∀ t', ph_at s1 t' = ph_del k (ph_at s t')) as Hph1.
        { intros t'. rewrite (ph_del_pl LW s k t p) by done. eapply ph_at_upd; [done|done|done|].
          intros t'' _. unfold mapped. by rewrite Hm1. }
        assert (slots s1 = slots s) as Hsl1 by (unfold slots; by rewrite Hit1, insert_length).
        assert (used s1 = used s) as Hus1.
        { unfold used. rewrite Hit1, (esum_upd _ _ _ _ _ Ht). simpl. pose proof (esum_ge one _ _ _ Ht). unfold one in *. lia. }
        eapply wp_mono.
        { apply (finish_spec E s1 l1 _ HI1 Hc1). intros Hge. rewrite wsum_cons in Hge. apply HEw. lia. }
        intros [[s' l'] o] [[HI' Hst' Hph' Hsl' Hus' Htok' (es & Hlog & Hev & Hfit & Hno)] ->].
        assert (sh_capacity s1 = sh_capacity s) as Hcap by (unfold cfg in Hcfg; congruence). rewrite Hcap in *.
        split_and!; [done|congruence| | |unfold slots_ok; lia|lia|by intros Hu; destruct (Hu t)].
        -- exists (es0 ++ es). split; [rewrite Hlog; simpl; by rewrite <-!(assoc_L (++))|].
           eapply ins_back; try done. intros Hle. apply Hno. rewrite wsum_cons. lia.
        -- intros t'. by rewrite Hph', Hph1.
    + (* a ghost *)
      assert (t < length (its_of s)) as Hlt by (by eapply lookup_lt_Some).
      assert ((hash P k, t) ∈ tpairs (sh_map s)) as Hbk.
      { destruct HI as (rs & fl & HI). destruct (m_tok _ _ _ _ (i_map _ _ _ HI) Hm) as (e' & He' & Hin). rewrite Ht in He'. by injection He' as <-. }
      pose proof (absent_find _ _ HI Ha) as Hf.
      destruct (is_replace strat) eqn:Hrep.
      { rewrite (ie_none _ _ _ _ _ _ _ (Ghost (hash P k))) by (try done; by apply entry_at_ok). simpl.
        split_and!; try done; [|unfold slots_ok; lia|lia]. exists es0. split; [done|]. by eapply ins_no_replace. }
      rewrite (ie_ghost _ _ _ _ _ _ _ (hash P k)) by (try done; by apply entry_at_ok).
      set (r' := Res k v1 Hot 0).
      destruct (N.ltb_spec (a_weight (sh_hot s) + weight P k v1) two64) as [HW|HW].
      2:{ rewrite enter_ghost_ovf by done. simpl. apply HEw. pose proof (wsum_acct s Hot HI). simpl in *. lia. }
      destruct (enter_ghost_spec LW s t r' HI Ht Ha eq_refl HW) as (s1 & Hen & HI1 & Hit1 & Hm1 & Hst1).
      change (rweight r') with (weight P k v1) in Hen. rewrite Hen. simpl.
      assert (sh_iter s1 ≡ₚ (k, v1) :: sh_iter s) as Hc1.
      { rewrite !sh_iter_kvs, Hit1. etrans; [by apply (kvs_insert _ _ _ _ Ht)|]. simpl. f_equiv.
        by rewrite (kvs_same _ _ _ None Ht). }
      assert (cfg s1 = cfg s) as Hcfg by (unfold static, cfg in *; by injection Hst1 as -> -> -> _ _ _).
      assert (∀ t', ph_at s1 t' = ph_at s t') as Hph1.
      { eapply ph_at_same; eauto. intros t' _. unfold mapped. by rewrite Hm1. }
      assert (slots s1 = slots s) as Hsl1 by (unfold slots; by rewrite Hit1, insert_length).
      assert (used s1 = used s) as Hus1.
      { unfold used. rewrite Hit1, (esum_upd _ _ _ _ _ Ht). simpl. pose proof (esum_ge one _ _ _ Ht). unfold one in *. lia. }
      eapply wp_mono.
      { apply (finish_spec E s1 l1 _ HI1 Hc1). intros Hge. rewrite wsum_cons in Hge. apply HEw. lia. }
      intros [[s' l'] o] [[HI' Hst' Hph' Hsl' Hus' Htok' (es & Hlog & Hev & Hfit & Hno)] ->].
      assert (sh_capacity s1 = sh_capacity s) as Hcap by (unfold cfg in Hcfg; congruence). rewrite Hcap in *.
      split_and!; [done|congruence| | |unfold slots_ok; lia|lia|by intros Hu; destruct (Hu t)].
      * exists (es0 ++ es). split; [rewrite Hlog; simpl; by rewrite <-!(assoc_L (++))|].
        eapply ins_back; try done. intros Hle. apply Hno. rewrite wsum_cons. lia.
      * intros t'. rewrite Hph', Hph1. by rewrite ph_del_absent.
    + (* nothing *)
      pose proof (absent_find _ _ HI Ha) as Hf.
      destruct (is_replace strat) eqn:Hrep.
      { simpl. split_and!; try done; [|unfold slots_ok; lia|lia]. exists es0. split; [done|]. by eapply ins_no_replace. }
      unfold wadd. destruct (N.ltb_spec (a_weight (sh_hot s) + weight P k v1) two64) as [HW|HW].
      2:{ simpl. apply HEw. pose proof (wsum_acct s Hot HI). simpl in *. lia. }
      simpl. set (st := if (_ <=? sh_target_hot s)%N then Hot else Cold).
      destruct (N.ltb_spec (wsum (sh_iter s) + weight P k v1) two64) as [HW2|HW2].
      2:{ rewrite (evict_until_ovf s l1 _ HI HW2). simpl. auto. }
      destruct (evict_until_spec LW s l1 _ HI HW2) as (s1 & l2 & -> & HI1 & Hp & Hfit & Hno).
      simpl. rewrite new_entry_eq. unfold new_entry. apply wp_bind.
      destruct (ev_done _ _ _ _ Hp HI1) as (Hph1 & Hsl1 & Hus1).
      destruct (ep_ev _ _ _ _ Hp) as (es & Hlog & Hev).
      pose proof (evicts_wsum _ _ _ _ _ Hev) as Hws.
      eapply wp_mono.
      { apply (enter_new_spec LW E s1 st k v1 HI1).
        - exact (absent_ev _ _ _ _ _ HI HI1 Hp Ha).
        - pose proof (wsum_acct s1 st HI1). lia.
        - intros Hfull. apply HEs. lia. }
      intros [s' t] (HI' & (Hn & Ht & Hfr & Hsum & Hkv) & Hmap & Hsok & Hst'). simpl.
      split_and!.
      * done.
      * rewrite Hst'. apply Hp.
      * exists (es0 ++ es). split; [rewrite Hlog; simpl; by rewrite <-!(assoc_L (++))|].
        eapply (ins_new _ _ _ _ _ _ _ _ _ _ _ es _ (sh_iter s1)); try done.
        -- intros Hle. eapply llog_nil; [|exact Hlog]. by apply Hno.
        -- rewrite !sh_iter_kvs. by rewrite Hkv.
      * intros t'. rewrite ph_del_absent by done. rewrite <-Hph1. unfold ph_at.
        destruct (decide (t' = t)) as [->|Hne].
        -- rewrite Ht. destruct (its_of s1 !! t) as [[[]|]|]; try done. by destruct (Hn (Placeholder p)).
        -- destruct (its_of s' !! t') as [[[r|p|h]|]|] eqn:Ht'.
           2:{ pose proof (proj1 (Hfr _ _ Hne) Ht') as Ht2. rewrite Ht2. do 2 f_equal. apply bool_decide_ext. rewrite Hmap. naive_solver. }
           all: destruct (its_of s1 !! t') as [[[r0|p0|h0]|]|] eqn:Ht2; try done; apply Hfr in Ht2; try done; congruence.
      * unfold slots_ok in *. lia.
      * specialize (Hsum one). unfold used in *. rewrite Hsum. unfold one at 2. lia.
      * intros _ _ _. rewrite !sh_iter_kvs, Hkv. by left.
Qed.
End insert.
