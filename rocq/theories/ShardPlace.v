(* The placeholder operations of a shard: upsert_placeholder, replace_placeholder,
   remove_placeholder. *)
From Verif Require Export ShardInsert.

Section place.
Context {P : Params} (LW : Lawful P).
Notation K := (K P). Notation V := (V P).
Notation entry := (entry P). Notation shard := (shard P). Notation resident := (resident P).
Implicit Types (s : shard) (l : lcs P) (e : entry) (r : resident) (its : list (option entry)) (k : K) (v : V) (c : contents P)
  (rs : RS P) (fl : list nat) (sl : slab entry) (st : rstate) (p : plh).

(* the key a placeholder handle stands for, while it still owns its slot *)
Definition owned s p : option K :=
  match ph_at s (ph_idx p) with
  | Some (q, _) => if same_as (P:=P) (p_shared q) p then Some (p_key q) else None
  | None => None
  end.
(* a handle that owns its slot is the one stored there, and the slot can be found *)
Definition good_handle s p : Prop :=
  ∀ q b, ph_at s (ph_idx p) = Some (q, b) → same_as (P:=P) (p_shared q) p = true → b = true ∧ p_shared q = p.

(* the entry at token t is the resident with key k, if there is one *)
Definition at_tok s k (t : nat) : Prop :=
  match its_of s !! t with
  | Some (Some (Resident r)) => keqb P k (r_key r) = true
  | _ => find_key k (sh_iter s) = None
  end.
Lemma at_tok_peek s k t : Inv s → at_tok s k t → peek_token s t = value_of k (sh_iter s).
Proof.
  unfold at_tok, value_of. intros HI H. destruct (its_of s !! t) as [[[r|p|h]|]|] eqn:Ht.
  1:{ rewrite (peek_token_ok _ _ _ Ht). by rewrite (find_iter LW s t r k HI Ht H). }
  all: rewrite H; simpl; unfold peek_token; destruct (slab_get (sh_ents s) t) as [[[r0|p0|h0] n]|] eqn:Hg; try done;
    apply get_items in Hg as [Hg _]; change (items (sh_ents s)) with (its_of s) in Hg; congruence.
Qed.
Lemma at_tok_refers s k t : Inv s → at_tok s k t → refers s k (peek_token_mut s t).
Proof.
  unfold at_tok. intros HI H. destruct (its_of s !! t) as [[[r|p|h]|]|] eqn:Ht.
  1:{ rewrite (peek_token_mut_ok _ _ _ Ht). by exists r. }
  all: assert (peek_token_mut s t = None) as ->; [|done].
  all: unfold peek_token_mut; destruct (slab_get (sh_ents s) t) as [[[r0|p0|h0] n]|] eqn:Hg; try done;
    apply get_items in Hg as [Hg _]; change (items (sh_ents s)) with (its_of s) in Hg; congruence.
Qed.

Lemma remove_set_self sl t x n y :
  ents sl !! t = Some n → item n = Some y → nxt n = t → prv n = t →
  ∃ sl1, slab_remove sl t = Ok (sl1, Some (y, None)) ∧ slab_remove (slab_set sl t x) t = Ok (sl1, Some (x, None)).
Proof.
  intros Hn Hi Hx Hp. destruct n as [i nx pv]. simpl in *. subst.
  exists (Slab (<[t := SNode None (next_free sl) t]> (ents sl)) t). split.
  - unfold slab_remove, slab_unlink, at_. rewrite Hn. simpl. rewrite !bool_decide_true by done. simpl. rewrite Hn. done.
  - unfold slab_set. rewrite Hn. unfold slab_remove, slab_unlink, at_, Slab.upd, set_item. simpl.
    rewrite list_lookup_insert by (by eapply lookup_lt_Some). simpl. rewrite !bool_decide_true by done. simpl.
    rewrite list_lookup_insert by (by eapply lookup_lt_Some). simpl. by rewrite list_insert_insert.
Qed.
Lemma ph_self s t (q : placeh P) : Inv s → its_of s !! t = Some (Some (Placeholder q)) →
  ∃ n, ents (sh_ents s) !! t = Some n ∧ item n = Some (Placeholder q) ∧ nxt n = t ∧ prv n = t.
Proof.
  intros (rs & fl & HI) Ht. assert (live (sh_ents s) t) as Hl by (by eexists).
  destruct (ri_self _ _ _ (i_ri _ _ _ HI) t Hl) as [H1 H2].
  { intros r Hin. apply (i_memb _ _ _ HI) in Hin as (e & He & Hc). rewrite Ht in He. by simplify_eq. }
  unfold its_of in Ht. rewrite items_lookup in Ht. destruct (ents (sh_ents s) !! t) as [n|] eqn:Hn; [|done].
  simpl in Ht. injection Ht as Ht. exists n. rewrite (nx_ents _ _ _ Hn) in H1. rewrite (pv_ents _ _ _ Hn) in H2. by simplify_eq.
Qed.

Lemma over_ph_spec s l p (q : placeh P) v x :
  Inv s → its_of s !! ph_idx p = Some (Some (Placeholder q)) → mapped s (ph_idx p) → p_shared q = p →
  ∃ s', handle_overweight_replace_placeholder (set_entry s (ph_idx p) x) l p (p_key q) v = Ok (s', call_evict l (p_key q) v) ∧
    Inv s' ∧ its_of s' = <[ph_idx p := None]> (its_of s) ∧ sh_map s' = tremove (sh_map s) (ph_idx p) ∧ static s' = static s.
Proof.
  intros HI Ht Hm Hp. set (t := ph_idx p) in *.
  destruct (remove_internal_spec LW s t _ HI Ht Hm) as (s' & Hrm & HI' & Hit & Hmap & Hst).
  destruct (ph_self _ _ _ HI Ht) as (n & Hn & Hi & Hx & Hpv).
  destruct (remove_set_self (sh_ents s) t x n _ Hn Hi Hx Hpv) as (sl1 & H1 & H2).
  assert ((hash P (p_key q), t) ∈ tpairs (sh_map s)) as Hin.
  { destruct HI as (rs & fl & HI). destruct (m_tok _ _ _ _ (i_map _ _ _ HI) Hm) as (e' & He' & Hin). rewrite Ht in He'. by simplify_eq. }
  assert (ph_hash p = hash P (p_key q)) as Hh.
  { destruct HI as (rs & fl & HI). rewrite <-Hp. by apply (m_ph _ _ _ (i_map _ _ _ HI) _ _ Ht). }
  unfold remove_internal in Hrm. simpl in Hrm. rewrite (map_remove_spec LW) in Hrm by done. simpl in Hrm.
  rewrite H1 in Hrm. simpl in Hrm. injection Hrm as <-.
  unfold handle_overweight_replace_placeholder. fold t. unfold set_entry. simpl. rewrite H2. simpl.
  rewrite Hh. rewrite (map_remove_spec LW) by done. simpl. eexists. split; [done|]. done.
Qed.

Lemma replace_eq s l p ref v (q : placeh P) :
  its_of s !! ph_idx p = Some (Some (Placeholder q)) → same_as (P:=P) (p_shared q) p = true →
  replace_placeholder s l p ref v =
    (let '(l, v1, w, over) := admission_l (sh_target_hot s) l (p_key q) v in
     if over then
       let! (s, l) := handle_overweight_replace_placeholder (set_entry s (ph_idx p) (Ghost 0)) l p (p_key q) v1 in
       Ok (s, l, None)
     else
       let! a := wadd (a_weight (sh_hot s)) (a_weight (sh_cold s)) in
       let! a := wadd a w in
       let st := if (a <=? sh_capacity s)%N then Hot else p_hot q in
       let! s := enter (set_entry s (ph_idx p) (Resident (Res (p_key q) v1 st (if ref then 1 else 0)))) st (ph_idx p) w in
       if negb (w =? 0)%N then let! (s, l, _) := finish s l in Ok (s, l, None) else Ok (s, l, None)).
Proof.
  intros Ht Hs. unfold replace_placeholder. destruct (get_live _ _ _ Ht) as (n & -> & _). rewrite Hs.
  set (t := ph_idx p).
  unfold admission_l. cbv zeta. change (sh_target_hot (set_entry s t (Ghost 0))) with (sh_target_hot s).
  destruct (if _ && _ then _ else _) as [[[l1 v1] w] [|]]; [done|].
  change (a_weight (sh_hot (set_entry s t (Ghost 0)))) with (a_weight (sh_hot s)).
  change (a_weight (sh_cold (set_entry s t (Ghost 0)))) with (a_weight (sh_cold s)).
  change (sh_capacity (set_entry s t (Ghost 0))) with (sh_capacity s).
  destruct (wadd _ _) as [a|]; [|done]. simpl. destruct (wadd _ _) as [a'|]; [|done]. simpl.
  rewrite set_entry_twice. unfold enter. destruct (add_weight _ _ _) as [s1|]; [|done]. simpl.
  destruct (negb (w =? 0)%N); [|done]. destruct (link_back _ _ _) as [s2|]; [|done]. simpl. unfold finish.
  by destruct (evict_until _ _ _) as [[??]|].
Qed.

Lemma replace_placeholder_spec (E : fail → Prop) s l p ref v :
  Inv s → good_handle s p →
  (∀ k rs1 es v1, owned s p = Some k → admission (sh_target_hot s) (lrs l) k v = (rs1, es, v1, false) →
     (two64 ≤ wsum (sh_iter s) + weight P k v1)%N → E WeightOvf) →
  match owned s p with
  | None => replace_placeholder s l p ref v = Ok (s, l, Some v)
  | Some k =>
      wp E (replace_placeholder s l p ref v) (λ '(s', l', o),
        Inv s' ∧ static s' = static s ∧ o = None ∧
        (∃ es, llog l' = llog l ++ es ∧
           loads (sh_capacity s) (sh_target_hot s) (lrs l) (sh_iter s) k v es (lrs l') (sh_iter s')) ∧
        (∀ t, ph_at s' t = if decide (t = ph_idx p) then None else ph_at s t) ∧
        slots s' = slots s ∧ (used s' ≤ used s)%N ∧ at_tok s' k (ph_idx p))
  end.
Proof.
  intros HI Hg HE. unfold owned in *. destruct (ph_at s (ph_idx p)) as [[q b]|] eqn:Hph.
  2:{ unfold replace_placeholder, ph_at in *.
      destruct (slab_get _ _) as [[[r|q|h] n]|] eqn:Hsg; try done.
      apply get_items in Hsg as [Hsg _]. change (items (sh_ents s)) with (its_of s) in Hsg. by rewrite Hsg in Hph. }
  apply ph_at_Some in Hph as [Ht Hb].
  destruct (same_as (p_shared q) p) eqn:Hsa.
  2:{ unfold replace_placeholder. destruct (get_live _ _ _ Ht) as (n & -> & _). by rewrite Hsa. }
  destruct (Hg q b) as [-> Hpq]; [by apply ph_at_Some|done|].
  symmetry in Hb. apply bool_decide_eq_true in Hb as Hm.
  rewrite (replace_eq _ _ _ _ _ q) by done.
  pose proof (admission_eq (sh_target_hot s) l (p_key q) v) as Had.
  specialize (HE (p_key q)).
  destruct (admission (sh_target_hot s) (lrs l) (p_key q) v) as [[[rs1 es0] v1] over] eqn:Hadm. rewrite Had. clear Had.
  assert (t_lt : ph_idx p < length (its_of s)) by (by eapply lookup_lt_Some).
  destruct over.
  - destruct (over_ph_spec s (Lcs rs1 (llog l ++ es0)) p q v1 (Ghost 0) HI Ht Hm Hpq) as (s' & -> & HI' & Hit & Hmap & Hst). simpl.
    destruct (removed_facts s s' _ _ HI Ht Hm Hit Hmap) as (Hph & Hsl & Hus).
    assert (sh_iter s' = sh_iter s) as Hit2 by (rewrite !sh_iter_kvs, Hit; by rewrite (kvs_same _ _ _ _ Ht)).
    split_and!; try done; [|lia|].
    2:{ unfold at_tok. rewrite Hit, list_lookup_insert by done. rewrite Hit2.
        eapply (absent_reskey LW s (p_key q) (ph_idx p)); [done|done|exact Ht|done| |done].
        intros k' [= <-]. apply (keqb_refl _ LW). }
    exists (es0 ++ [EvEvict (p_key q) v1]). split; [by rewrite (assoc_L (++))|].
    eapply ld_over; [done|]. by rewrite Hit2.
  - specialize (HE _ _ _ eq_refl eq_refl). pose proof (wsum_total s HI) as Htot.
    unfold wadd at 1. destruct (N.ltb_spec (a_weight (sh_hot s) + a_weight (sh_cold s)) two64) as [HW0|HW0]; simpl.
    2:{ apply HE. lia. }
    unfold wadd at 1. destruct (N.ltb_spec (a_weight (sh_hot s) + a_weight (sh_cold s) + weight P (p_key q) v1) two64) as [HW1|HW1]; simpl.
    2:{ apply HE. lia. }
    set (st := if (_ <=? sh_capacity s)%N then Hot else p_hot q).
    set (r' := Res (p_key q) v1 st (if ref then 1 else 0)%N).
    destruct (enter_ph_spec LW s (ph_idx p) q r' HI Ht Hm (keqb_refl _ LW _)) as (s1 & Hen & HI1 & Hit1 & Hm1 & Hst1).
    { change (r_state r') with st. change (rweight r') with (weight P (p_key q) v1). destruct st; simpl; lia. }
    change (r_state r') with st in Hen. change (rweight r') with (weight P (p_key q) v1) in Hen. rewrite Hen. simpl. clear Hen.
    assert (sh_iter s1 ≡ₚ (p_key q, v1) :: sh_iter s) as Hc1.
    { rewrite !sh_iter_kvs, Hit1. etrans; [by apply (kvs_insert _ _ _ _ Ht)|]. simpl. f_equiv.
      by rewrite (kvs_same _ _ _ None Ht). }
    assert (sh_capacity s1 = sh_capacity s) as Hcap by (unfold static in *; by injection Hst1 as _ -> _ _ _ _).
    assert (∀ t', ph_at s1 t' = if decide (t' = ph_idx p) then None else ph_at s t') as Hph1.
    { eapply ph_at_upd; [done|done|done|]. intros t'' _. unfold mapped. by rewrite Hm1. }
    assert (slots s1 = slots s) as Hsl1 by (unfold slots; by rewrite Hit1, insert_length).
    assert (used s1 = used s) as Hus1.
    { unfold used. rewrite Hit1, (esum_upd _ _ _ _ _ Ht). simpl. pose proof (esum_ge one _ _ _ Ht). unfold one in *. lia. }
    assert (its_of s1 !! ph_idx p = Some (Some (Resident r'))) as Ht1 by (rewrite Hit1; by apply list_lookup_insert).
    destruct (N.eqb_spec (weight P (p_key q) v1) 0) as [Hz|Hz]; simpl.
    + split_and!; try done; [|lia|].
      * exists es0. split; [done|]. by eapply ld_zero.
      * unfold at_tok. rewrite Ht1. apply (keqb_refl _ LW).
    + apply wp_bind. eapply wp_mono.
      { apply (finish_spec LW E s1 (Lcs rs1 (llog l ++ es0)) _ HI1 Hc1). intros Hge. rewrite wsum_cons in Hge. apply HE. lia. }
      intros [[s' l'] o] [[HI' Hst' Hph' Hsl' Hus' Htok' (es & Hlog & Hev & Hfit & Hno)] _]. rewrite Hcap in *. simpl.
      split_and!; [done|congruence|done| |intros t; by rewrite Hph'|lia|lia|].
      2:{ assert (∀ t r2, its_of s' !! t = Some (Some (Resident r2)) → keqb P (p_key q) (r_key r2) = true → t = ph_idx p) as Huniq.
          { intros t r2 Hr2 Hk2. destruct (Htok' _ _ Hr2) as (r3 & Hr3 & Hk3). rewrite <-Hk3 in Hk2.
            pose proof (res_mapped _ _ _ HI1 Hr3) as Hm3. pose proof (res_mapped _ _ _ HI1 Ht1) as Hm4.
            destruct HI1 as (rs & fl & HI1).
            eapply (m_uniq _ _ _ (i_map _ _ _ HI1)); [exact Hm3|exact Hm4|exact Hr3|exact Ht1|done|done|].
            by apply (keqb_sym _ LW). }
          unfold at_tok. destruct (its_of s' !! ph_idx p) as [[[r2|p2|h2]|]|] eqn:Ht2.
          1:{ destruct (Htok' _ _ Ht2) as (r3 & Hr3 & Hk3). rewrite Ht1 in Hr3. injection Hr3 as <-. rewrite <-Hk3. apply (keqb_refl _ LW). }
          all: apply find_key_None; intros [k2 v2] Hin; apply iter_elem in Hin as (t & r2 & Hr2 & <- & <-); simpl;
            destruct (keqb P (p_key q) (r_key r2)) eqn:Hk2; [|done]; pose proof (Huniq _ _ Hr2 Hk2); subst t; congruence. }
      exists (es0 ++ es). split; [rewrite Hlog; simpl; by rewrite <-!(assoc_L (++))|].
      eapply ld_in; try done. intros Hle. apply Hno. rewrite wsum_cons. lia.
Qed.

(* ---- upsert_placeholder ---- *)
Lemma upsert_ghost s k t :
  search s (hash P k) k = Ok (Some t) → entry_at s t = Ok (Ghost (hash P k)) →
  upsert_placeholder s (hash P k) k =
    (let sh := Plh (hash P k) t (sh_nph s) in
     let! s := ghost_ph s t (Pla k Hot sh) in Ok (record_miss s, inr (sh, true))).
Proof.
  intros H1 H2. unfold upsert_placeholder. rewrite H1. simpl. rewrite H2. simpl. unfold ghost_ph.
  destruct (dec_nnr _) as [s1|]; [|done]. simpl. by destruct (slab_unlink _ _) as [[??]|].
Qed.
Lemma upsert_new s k :
  search s (hash P k) k = Ok None →
  upsert_placeholder s (hash P k) k =
    (let! (s, sh) := new_ph s (hash P k) k in Ok (record_miss s, inr (sh, true))).
Proof.
  intros H1. unfold upsert_placeholder. rewrite H1. simpl. unfold new_ph. simpl.
  destruct (slab_insert _ _) as [[??]|]; [|done]. simpl. destruct (assert _); [|done]. simpl.
  by destruct (map_insert _ _ _).
Qed.

Inductive upserted s k s' : (nat * V) + (plh * bool) → Prop :=
  | up_hit t ko vo r : find_key k (sh_iter s) = Some (ko, vo) → quiet s s' → stats s' = tick true (stats s) →
      its_of s' !! t = Some (Some (Resident r)) → r_key r = ko → r_val r = vo → upserted s k s' (inl (t, vo))
  | up_wait q : find_key k (sh_iter s) = None → quiet s s' → stats s' = tick true (stats s) →
      ph_at s (ph_idx (p_shared q)) = Some (q, true) → keqb P k (p_key q) = true → upserted s k s' (inr (p_shared q, false))
  | up_new q : find_key k (sh_iter s) = None → (∀ t q, ph_at s t = Some (q, true) → keqb P k (p_key q) = false) →
      Inv s' → cfg s' = cfg s → stats s' = tick false (stats s) → sh_iter s' ≡ₚ sh_iter s →
      p_key q = k → ph_id (p_shared q) = sh_nph s → ph_hash (p_shared q) = hash P k → sh_nph s' = (sh_nph s + 1)%N →
      (∀ t, ph_at s' t = if decide (t = ph_idx (p_shared q)) then Some (q, true) else ph_at s t) →
      ph_at s (ph_idx (p_shared q)) = None →
      slots_ok s s' → (used s' ≤ used s + 1)%N →
      upserted s k s' (inr (p_shared q, true)).

Lemma absent_ph s k : absent s k → ∀ t q, ph_at s t = Some (q, true) → keqb P k (p_key q) = false.
Proof.
  intros Ha t q Hq. apply ph_at_Some in Hq as [Ht Hb]. symmetry in Hb. apply bool_decide_eq_true in Hb. by eapply Ha.
Qed.

Lemma upsert_spec (E : fail → Prop) s k :
  Inv s → ((two32 ≤ used s + 2)%N → E SlabFull) →
  wp E (upsert_placeholder s (hash P k) k) (λ '(s', r), upserted s k s' r).
Proof.
  intros HI HE. destruct (search_spec LW s k HI) as (o & Hs & Ho).
  destruct Ho as [t e k' Hm Ht He Hk|t Hm Ht Ha|Ha Hg].
  - unfold upsert_placeholder. rewrite Hs. simpl. rewrite (entry_at_ok _ _ _ Ht). simpl.
    destruct e as [r|q|h]; simpl in He; [injection He as <-|injection He as <-|done]; simpl.
    + fold (bump r). destruct (quiet_bump LW s t r HI Ht) as (Hq & Hst & Hr).
      destruct (bump_ref r) as [x Hx].
      eapply (up_hit _ _ _ t (r_key r)); [by apply (find_iter LW s t r)|done|done|exact Hr|by rewrite Hx|by rewrite Hx].
    + pose proof (ph_at_pl _ _ _ Ht Hm) as Hph.
      assert (ph_idx (p_shared q) = t) as Hi by (destruct HI as (rs & fl & HI); by apply (m_ph _ _ _ (i_map _ _ _ HI) _ _ Ht)).
      apply up_wait.
      * eapply (absent_reskey LW s k t); [done|done|exact Ht|done| |done]. by intros k' [= <-].
      * by apply quiet_hit, quiet_refl.
      * done.
      * by rewrite Hi.
      * done.
  - rewrite (upsert_ghost s k t Hs) by (by apply entry_at_ok). cbv zeta.
    destruct (ghost_ph_spec LW s t k HI Ht Ha) as (s' & -> & HI' & Hit & Hmap & Hcfg & Hst & Hnph). simpl.
    set (q := Pla k Hot (Plh (hash P k) t (sh_nph s))) in *.
    assert (t < length (its_of s)) as Hlt by (by eapply lookup_lt_Some).
    change (Plh (hash P k) t (sh_nph s)) with (p_shared q). apply up_new; try done.
    + by apply absent_find.
    + by apply absent_ph.
    + pose proof (inv_stats _ (sh_hits s') (sh_misses s' + 1) HI') as H. done.
    + unfold stats, tick in *. simpl. by injection Hst as -> ->.
    + change (sh_iter (record_miss s')) with (sh_iter s'). rewrite !sh_iter_kvs, Hit.
      by rewrite (kvs_same _ _ _ _ Ht).
    + intros t'. change (ph_at (record_miss s') t') with (ph_at s' t'). simpl. unfold ph_at. rewrite Hit. case_decide as Hd.
      * subst. rewrite list_lookup_insert by done. do 2 f_equal. apply bool_decide_true. unfold mapped. by rewrite Hmap.
      * rewrite list_lookup_insert_ne by done. destruct (its_of s !! t') as [[[]|]|]; try done.
        do 2 f_equal. apply bool_decide_ext. unfold mapped. by rewrite Hmap.
    + simpl. unfold ph_at. by rewrite Ht.
    + apply slots_ok_eq. change (its_of (record_miss s')) with (its_of s'). by rewrite Hit, insert_length.
    + change (used (record_miss s')) with (used s'). unfold used. rewrite Hit, (esum_upd _ _ _ _ _ Ht). simpl.
      pose proof (esum_ge one _ _ _ Ht). unfold one in *. lia.
  - rewrite (upsert_new s k Hs). apply wp_bind. eapply wp_mono; [by apply (new_ph_spec LW E s k)|].
    intros [s' sh] (Hid & Hh & HI' & (Hn & Ht & Hfr & Hsum & Hkv) & Hmap & Hsok & Hcfg & Hst & Hnph). simpl.
    set (q := Pla k Cold sh) in *. change sh with (p_shared q). apply up_new; try done.
    + by apply absent_find.
    + by apply absent_ph.
    + pose proof (inv_stats _ (sh_hits s') (sh_misses s' + 1) HI') as H. done.
    + unfold stats, tick in *. simpl. by injection Hst as -> ->.
    + change (sh_iter (record_miss s')) with (sh_iter s'). by rewrite !sh_iter_kvs, Hkv.
    + intros t'. change (ph_at (record_miss s') t') with (ph_at s' t'). simpl. unfold ph_at. case_decide as Hd.
      * subst. rewrite Ht. do 2 f_equal. apply bool_decide_true. apply Hmap. by left.
      * destruct (its_of s' !! t') as [[[r|p|h]|]|] eqn:Ht'.
        2:{ pose proof (proj1 (Hfr _ _ Hd) Ht') as Ht2. rewrite Ht2. do 2 f_equal. apply bool_decide_ext. rewrite Hmap. naive_solver. }
        all: destruct (its_of s !! t') as [[[r0|p0|h0]|]|] eqn:Ht2; try done; apply Hfr in Ht2; try done; congruence.
    + simpl. unfold ph_at. destruct (its_of s !! ph_idx sh) as [[[r0|p0|h0]|]|] eqn:Ht2; try done. by destruct (Hn (Placeholder p0)).
    + change (used (record_miss s')) with (used s'). unfold used. specialize (Hsum one). rewrite Hsum. unfold one at 2. lia.
Qed.

(* ---- remove_placeholder ---- *)
Definition ph_unmap s p (t : nat) : option (placeh P * bool) :=
  match ph_at s t with
  | Some (q, b) => if decide (t = ph_idx p) then Some (q, b && negb (same_as (P:=P) (p_shared q) p)) else Some (q, b)
  | None => None
  end.
Lemma remove_placeholder_spec s p : Inv s → good_handle s p →
  ∃ s', remove_placeholder s p = Ok s' ∧ Inv s' ∧ sh_iter s' = sh_iter s ∧ static s' = static s ∧
    slots s' = slots s ∧ used s' = used s ∧ (∀ t, ph_at s' t = ph_unmap s p t).
Proof.
  intros HI Hg. unfold remove_placeholder, tfind.
  set (f := λ i, if bool_decide (i ≠ ph_idx p) then false
     else match its_of s !! i with Some (Some (Placeholder q)) => same_as (P:=P) (p_shared q) p | _ => false end).
  rewrite (scan_ok _ _ f).
  2:{ intros i Hin. unfold f. case_bool_decide; [done|]. apply (probe_sound _ LW) in Hin.
      destruct HI as (rs & fl & HI). destruct (m_tok _ _ _ _ (i_map _ _ _ HI) Hin) as (e & He & _).
      rewrite (entry_at_ok _ _ _ He). simpl. change (items (sh_ents s)) with (its_of s) in *. rewrite He. by destruct e. }
  simpl. destruct (find _ _) as [i|] eqn:Hf.
  - apply List.find_some in Hf as [Hin Hi]. unfold f in Hi. case_bool_decide as Hne; [done|].
    destruct (decide (i = ph_idx p)) as [->|]; [|done]. clear Hne.
    destruct (its_of s !! ph_idx p) as [[[r|q|h]|]|] eqn:Ht; try done.
    eexists. split; [done|]. split; [by eapply (unmap_spec s (ph_idx p) q)|]. split; [done|]. split; [done|]. split; [done|]. split; [done|].
    intros t. unfold ph_unmap. destruct (decide (t = ph_idx p)) as [->|Hne].
    + unfold ph_at. change (its_of (set_map _ _)) with (its_of s). rewrite Ht. rewrite Hi.
      do 2 f_equal. rewrite andb_false_r. apply bool_decide_false. unfold mapped. cbn [sh_map set_map]. rewrite elem_tremove_snd. naive_solver.
    + unfold ph_at. change (its_of (set_map _ _)) with (its_of s). destruct (its_of s !! t) as [[[]|]|]; try done.
      do 2 f_equal. apply bool_decide_ext. unfold mapped. cbn [sh_map set_map]. rewrite elem_tremove_snd. naive_solver.
  - exists s. split_and!; try done. intros t. unfold ph_unmap.
    destruct (ph_at s t) as [[q b]|] eqn:Hph; [|done]. case_decide as Hd; [|done]. subst t.
    destruct (same_as (p_shared q) p) eqn:Hsa; [|by destruct b]. exfalso.
    destruct (Hg _ _ Hph Hsa) as [-> <-]. apply ph_at_Some in Hph as [Ht Hb].
    symmetry in Hb. apply bool_decide_eq_true in Hb.
    assert (ph_idx (p_shared q) ∈ probe P (sh_map s) (ph_hash (p_shared q))) as Hin.
    { destruct HI as (rs & fl & HI). destruct (m_tok _ _ _ _ (i_map _ _ _ HI) Hb) as (e & He & Hin). rewrite Ht in He. simplify_eq.
      apply (probe_complete _ LW). destruct (m_ph _ _ _ (i_map _ _ _ HI) _ _ Ht) as (_ & Hh & _). rewrite Hh. done. }
    apply elem_of_list_In in Hin. apply (List.find_none _ _ Hf) in Hin. unfold f in Hin.
    rewrite bool_decide_false in Hin by naive_solver. rewrite Ht in Hin. congruence.
Qed.
End place.
