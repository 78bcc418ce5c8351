(* The sequential cache follows the machine of Policy.v: the calls. *)
From stdpp Require Import functions.
From Verif Require Export PolicyOps.

Section step.
Context {P : Params} (LW : Lawful P).
Notation K := (K P). Notation V := (V P).
Notation entry := (entry P). Notation shard := (shard P). Notation item := (resident P).
Notation place := (option rid).
Implicit Types (s : shard) (l : lcs P) (e : entry) (x y : item) (its : list (option entry)) (k : K) (v : V)
  (T : place → list nat) (E : place → list entry) (pl : place) (p q : policy P) (lim : limits).

Lemma shown_adm lim l k v l1 v1 w over : admission_l (lm_budget lim) l k v = (l1, v1, w, over) →
  shown lim l k v = (l1, v1) ∧ w = weight P k v1 ∧ too_heavy lim k v v1 = over.
Proof.
  unfold admission_l, shown, too_heavy, big. destruct (_ && _); simpl.
  - destruct (call_before l k v) as [l2 v2]. by intros [= <- <- <- <-].
  - by intros [= <- <- <- <-].
Qed.
Lemma rel_target lim s p : Rel lim s p → sh_target_hot s = lm_budget lim ∧ sh_capacity s = lm_capacity lim.
Proof. intros [T HR]. destruct (cfg_fields lim s (R_cfg _ _ _ _ HR)) as (? & ? & _). done. Qed.

Lemma rel_over lim s p l k v strat s' l' o : Rel lim s p → handle_insert_overweight s l (hash P k) k v strat = Ok (s', l', o) →
  o = (if is_replace strat then Some (k, v) else None) ∧
  ((∃ x q, item_of p k x ∧ leave p x q ∧ Rel lim s' q ∧
     l' = if is_replace strat then call_evict l (r_key x) (r_val x) else call_evict (call_evict l (r_key x) (r_val x)) k v) ∨
   (no_item p k ∧ Rel lim s' p ∧ l' = if is_replace strat then l else call_evict l k v)).
Proof.
  intros HR H. unfold handle_insert_overweight in H.
  destruct (search_resident_spec LW s k (Rel_inv _ _ _ HR)) as (o1 & Hs & Ho). rewrite Hs in H. cbn [rbind] in H.
  destruct o1 as [[t x]|].
  - destruct Ho as (Ht & Hk & _). apply bind_ok in H as ([s1 l1] & H1 & H). apply bind_ok in H1 as ([s2 o2] & H2 & H1). injection H1 as <- <-.
    pose proof (rel_item_of _ _ _ _ _ _ HR Ht Hk) as Hx.
    pose proof (res_mapped _ _ _ (Rel_inv _ _ _ HR) Ht) as Hm.
    destruct HR as [T HR].
    rewrite <-(ekey_hash LW (Resident x) (r_key x) k eq_refl Hk) in H2.
    destruct (rel_removeT LW _ _ _ _ _ _ _ _ HR Ht Hm H2) as (-> & q & HRq & Hlv & _). simpl in H.
    assert (Rel lim s2 q) as HRq' by (eexists; exact HRq).
    destruct (is_replace strat); injection H as <- <- <-; (split; [done|]); left; exists x, q; done.
  - destruct Ho as [Hn _]. cbn [rbind] in H. apply (rel_no_item _ _ _ _ HR) in Hn.
    destruct (is_replace strat); injection H as <- <- <-; (split; [done|]); right; done.
Qed.
Lemma finish_inv lim s p l s' l' o : Rel lim s p → finish s l = Ok (s', l', o) →
  o = None ∧ ∃ q, make_room lim 0 p l q l' ∧ Rel lim s' q.
Proof.
  intros HR H. unfold finish in H. apply bind_ok in H as ([s1 l1] & H1 & H). injection H as <- <- <-.
  split; [done|]. by eapply (room_sim LW).
Qed.
Lemma room_ev s l extra s' l' : Inv s → evict_until s l extra = Ok (s', l') → Inv s' ∧ ev_post s l s' l'.
Proof.
  intros HI H. destruct (N.lt_ge_cases (wsum (sh_iter s) + extra) two64) as [Hlt|Hge].
  - destruct (evict_until_spec LW s l extra HI Hlt) as (s1 & l1 & H1 & HI1 & Hev & _). rewrite H1 in H. by injection H as <- <-.
  - rewrite evict_until_ovf in H; done.
Qed.
Lemma rel_insert lim s p l k v strat s' l' o : Rel lim s p → sh_insert s l (hash P k) k v strat = Ok (s', l', o) →
  ∃ q, inserting lim p l k v strat q l' o ∧ Rel lim s' q.
Proof.
  intros HR H. pose proof (Rel_inv _ _ _ HR) as HI. destruct (rel_target _ _ _ HR) as [Htg Hcap].
  change (sh_insert s l (hash P k) k v strat) with
    (let '(l, value, w, over) := admission_l (sh_target_hot s) l k v in
     if over then handle_insert_overweight s l (hash P k) k value strat
     else
       let! o := search s (hash P k) k in
       match o with
       | Some idx => insert_existing s l idx k value w strat
       | None =>
           if is_replace strat then Ok (s, l, Some (k, value))
           else
             let! hw := wadd (a_weight (sh_hot s)) w in
             let enter_hot := (hw <=? sh_target_hot s)%N in
             let! (s, l) := evict_until s l w in
             let st := if enter_hot then Hot else Cold in
             let s := inc_num s st in
             let! s := add_weight s st w in
             let! (es, idx) := slab_insert (sh_ents s) (Resident (Res k value st 0)) in
             let s := set_ents s es in
             let! s := (if negb (w =? 0)%N then link_back s st idx else Ok s) in
             let! s := map_insert s (hash P k) idx in
             Ok (s, l, None)
       end) in H.
  rewrite Htg in H. destruct (admission_l (lm_budget lim) l k v) as [[[l1 v1] w] over] eqn:Had.
  apply shown_adm in Had as (Hsh & -> & Hov). destruct over.
  - destruct (rel_over _ _ _ _ _ _ _ _ _ _ HR H) as (-> & [(x & q & Hx & Hlv & HRq & ->)|(Hn & HRq & ->)]).
    + exists q. split; [|done]. by eapply insert_refused_old.
    + exists p. split; [|done]. by eapply insert_refused_new.
  - destruct (search_spec LW s k HI) as (o1 & Hs & Ho). rewrite Hs in H. cbn [rbind] in H.
    destruct Ho as [t e k' Hm Ht He Hk|t Hm Ht Ha|Ha Hg].
    + pose proof (found_item LW _ _ _ _ _ _ _ HR Hm Ht He Hk) as Hfd.
      destruct e as [x|h|]; simpl in He; [| |done]; injection He as <-.
      * rewrite (ie_res _ _ _ _ _ _ _ x) in H by (by apply entry_at_ok).
        apply bind_ok in H as (s1 & H1 & H).
        destruct (rel_reweigh LW lim s p x (Res k v1 (r_state x) (N.min (r_ref x + if is_soft strat then 0 else 1) MAX_F)) t s1 HR Ht eq_refl (keqb_sym _ LW _ _ Hk) H1) as (_ & q1 & Hq1 & HR1).
        destruct (finish_inv _ _ _ _ _ _ _ HR1 H) as (-> & q & Hq & HRq). exists q. split; [|done].
        by eapply insert_over.
      * destruct (is_replace strat) eqn:Hrep.
        { rewrite (ie_none _ _ _ _ _ _ _ (Placeholder h)) in H by (try done; by apply entry_at_ok). injection H as <- <- <-.
          exists p. split; [|done]. eapply insert_nothing; [done|done|apply Hfd|done]. }
        rewrite (ie_ph _ _ _ _ _ _ _ h) in H by (try done; by apply entry_at_ok).
        apply bind_ok in H as (s1 & H1 & H).
        destruct (rel_enter LW lim s p k h (Res k v1 (p_hot h) 1) t s1 HR Ht Hm Hk (keqb_sym _ LW _ _ Hk) H1) as [HR1 _].
        destruct (finish_inv _ _ _ _ _ _ _ HR1 H) as (-> & q & Hq & HRq). exists q. split; [|done].
        destruct strat; [|done]. by eapply insert_loading.
    + destruct (is_replace strat) eqn:Hrep.
      { rewrite (ie_none _ _ _ _ _ _ _ (Ghost (hash P k))) in H by (try done; by apply entry_at_ok). injection H as <- <- <-.
        exists p. split; [|done]. eapply insert_nothing; [done|done| |done]. apply (rel_no_item _ _ _ _ HR). by apply absent_nores. }
      rewrite (ie_ghost _ _ _ _ _ _ _ (hash P k)) in H by (try done; by apply entry_at_ok).
      apply bind_ok in H as (s1 & H1 & H).
      destruct (rel_enter_ghost LW lim s p (Res k v1 Hot 0) t s1 HR Ht Ha eq_refl H1) as (q1 & Hq1 & HR1).
      destruct (finish_inv _ _ _ _ _ _ _ HR1 H) as (-> & q & Hq & HRq). exists q. split; [|done].
      destruct strat; [|done]. by eapply insert_ghost.
    + destruct (is_replace strat) eqn:Hrep.
      { injection H as <- <- <-. exists p. split; [|done]. eapply insert_nothing; [done|done| |done].
        apply (rel_no_item _ _ _ _ HR). by apply absent_nores. }
      apply bind_ok in H as (hw & Hhw & H). unfold wadd in Hhw. destruct (_ <? _)%N in Hhw; [|done]. injection Hhw as <-.
      cbv zeta in H. apply bind_ok in H as ([s1 l2] & H1 & H).
      destruct (room_ev _ _ _ _ _ HI H1) as [HI1 Hev]. pose proof (absent_ev _ _ _ _ _ HI HI1 Hev Ha) as Ha1.
      destruct (room_sim LW _ _ _ _ _ _ _ HR H1) as (q1 & Hq1 & HR1).
      set (st := if (a_weight (sh_hot s) + weight P k v1 <=? lm_budget lim)%N then Hot else Cold) in H.
      pose proof (new_entry_eq s1 l2 st k v1 (weight P k v1) (hash P k)) as Hne. cbv zeta in Hne. rewrite Hne in H. clear Hne. unfold new_entry in H.
      apply bind_ok in H as ([s2 t] & H2 & H). injection H as <- <- <-.
      pose proof (rel_enter_new LW _ _ _ _ _ _ _ _ HR1 Ha1 H2) as HR2. eexists. split; [|exact HR2].
      destruct strat; [|done]. unfold st. pose proof (Rel_weight _ _ _ Hot HR) as Hw. simpl in Hw. rewrite Hw.
      eapply insert_new; [done|done|by eapply found_none|done].
Qed.

(* ---- loads ---- *)
Lemma rel_fill lim s p l h sh ref v s' l' o : Rel lim s p →
  its_of s !! ph_idx sh = Some (Some (Placeholder h)) → mapped s (ph_idx sh) → p_shared h = sh →
  replace_placeholder s l sh ref v = Ok (s', l', o) →
  o = None ∧ at_tok s' (p_key h) (ph_idx sh) ∧ ∃ q, filling lim (if ref : bool then 1 else 0) p l (p_key h) (p_hot h) v q l' ∧ Rel lim s' q.
Proof.
  intros HR Ht Hm Hsh H. pose proof (Rel_inv _ _ _ HR) as HI. destruct (rel_target _ _ _ HR) as [Htg Hcap].
  pose proof (ph_at_pl _ _ _ Ht Hm) as Hph.
  assert (owned s sh = Some (p_key h)) as Hown by (unfold owned; by rewrite Hph, Hsh, same_as_refl).
  assert (good_handle s sh) as Hgood by (intros h' b Hb _; rewrite Hph in Hb; by injection Hb as <- <-).
  assert (o = None ∧ at_tok s' (p_key h) (ph_idx sh)) as [-> Hat].
  { pose proof (replace_placeholder_spec LW (λ _, True) s l sh ref v HI Hgood (λ _ _ _ _ _ _ _, I)) as Hs. rewrite Hown, H in Hs. simpl in Hs.
    destruct Hs as (_ & _ & ? & _ & _ & _ & _ & ?). done. }
  split_and!; [done|done|].
  rewrite (replace_eq s l sh ref v h Ht) in H by (by rewrite Hsh, same_as_refl).
  rewrite Htg in H. destruct (admission_l (lm_budget lim) l (p_key h) v) as [[[l1 v1] w] over] eqn:Had.
  apply shown_adm in Had as (Hshn & -> & Hov). destruct over.
  - apply bind_ok in H as ([s1 l2] & H1 & H). injection H as <- <-.
    destruct (over_ph_spec LW s l1 sh h v1 (Ghost 0) HI Ht Hm Hsh) as (s2 & H2 & HI2 & Hits & Hmap & Hstat).
    rewrite H2 in H1. injection H1 as <- <-.
    eexists. split; [by eapply fill_refused|].
    destruct HR as [T HR]. assert (ph_idx sh < length (its_of s)) as Hlt by by eapply lookup_lt_Some.
    assert (∀ pl, ph_idx sh ∉ T pl) as Hn.
    { intros pl. eapply M_notin; [apply HR|]. intros e' He'. rewrite Ht in He'. by injection He' as <-. }
    exists T. split; [done| | | |].
    + rewrite (static_cfg _ _ Hstat). apply HR.
    + destruct (removed_facts s s2 _ _ HI Ht Hm Hits Hmap) as (Hph2 & _ & _).
      eapply (LD_del LW s s2 p _ (ph_idx sh) h); [done|apply HR|done|apply (keqb_refl _ LW)|].
      intros t' h'. rewrite Hph2. destruct (decide (t' = ph_idx sh)) as [->|]; naive_solver.
    + unfold handle_overweight_replace_placeholder in H2. apply bind_ok in H2 as ([es o] & H3 & H2).
      apply bind_ok in H2 as (s3 & H4 & H2). injection H2 as ->. apply map_remove_inv in H4 as [E4 G4].
      destruct (R_rings _ _ _ _ HR) as [[fl HRI] Hh].
      destruct (RI_set _ _ _ (ph_idx sh) (Ghost 0) _ HRI Ht) as [Hit HRI1].
      destruct (RI_remove_free _ _ _ _ (Ghost 0) HRI1 (λ r, Hn (Some r))) as (sl' & Hrm' & _ & HRI').
      { rewrite Hit. by apply list_lookup_insert. }
      simpl in H3. rewrite Hrm' in H3. injection H3 as <- <-. split; [exists (ph_idx sh :: fl); by rewrite E4|].
      intros r. rewrite G4, <-Hh. by destruct r.
    + rewrite Hits. eapply M_ext; [eapply (M_other _ _ _ _ (ph_idx sh) None); [apply HR|by apply chg_insert|done|done]|done|done].
  - apply bind_ok in H as (a & Ha & H). unfold wadd in Ha. destruct (_ <? _)%N in Ha; [|done]. injection Ha as <-.
    apply bind_ok in H as (a & Ha & H). unfold wadd in Ha. destruct (_ <? _)%N in Ha; [|done]. injection Ha as <-. cbv zeta in H.
    pose proof (Rel_weight _ _ _ Hot HR) as Hw. pose proof (Rel_weight _ _ _ Cold HR) as Hw2. simpl in Hw, Hw2. rewrite Hw, Hw2, Hcap in H.
    set (st := if (tweight (q_hot p) + tweight (q_cold p) + weight P (p_key h) v1 <=? lm_capacity lim)%N then Hot else p_hot h) in H.
    apply bind_ok in H as (s1 & H1 & H).
    destruct (rel_enter LW lim s p (p_key h) h (Res (p_key h) v1 st (if ref then 1 else 0)) _ s1 HR Ht Hm (keqb_refl _ LW _) (keqb_refl _ LW _) H1) as [HR1 _].
    destruct (weight P (p_key h) v1 =? 0)%N eqn:Hz; cbn [negb] in H.
    + injection H as <- <-. eexists. split; [|exact HR1]. eapply fill_in; [done|done|done|]. by rewrite Hz.
    + apply bind_ok in H as ([[s2 l2] o] & H2 & H). injection H as <- <-.
      destruct (finish_inv _ _ _ _ _ _ _ HR1 H2) as (-> & q & Hq & HRq). exists q. split; [|done].
      eapply fill_in; [done|done|done|]. by rewrite Hz.
Qed.
Lemma bump_used x : bump x = used_more x.
Proof. unfold bump, used_more. change MAX_F with 2%N. destruct x as [k v st n]; simpl. by destruct (n <? 2)%N. Qed.
Lemma rel_upsert lim s p k s' r : Rel lim s p → upsert_placeholder s (hash P k) k = Ok (s', r) →
  match r with
  | inl (t, v) => ∃ x, item_of p k x ∧ v = r_val x ∧ its_of s !! t = Some (Some (Resident x)) ∧
      s' = record_hit (set_entry s t (Resident (used_more x)))
  | inr (sh, _) => ∃ q h, start_load p k q (p_key h) (p_hot h) ∧ Rel lim s' q ∧
      its_of s' !! ph_idx sh = Some (Some (Placeholder h)) ∧ mapped s' (ph_idx sh) ∧ p_shared h = sh ∧ keqb P k (p_key h) = true
  end.
Proof.
  intros HR H. pose proof (Rel_inv _ _ _ HR) as HI. destruct (search_spec LW s k HI) as (o & Hs & Ho).
  destruct Ho as [t e k' Hm Ht He Hk|t Hm Ht Ha|Ha Hg].
  - pose proof (found_item LW _ _ _ _ _ _ _ HR Hm Ht He Hk) as Hfd.
    unfold upsert_placeholder in H. rewrite Hs in H. cbn [rbind] in H. rewrite (entry_at_ok _ _ _ Ht) in H. cbn [rbind] in H.
    destruct e as [x|h|]; simpl in He; [| |done]; injection He as <-.
    + fold (bump x) in H. rewrite bump_used in H. injection H as <- <-. by exists x.
    + injection H as <- <-. destruct HI as (rs & fl & HI). destruct (m_ph _ _ _ (i_map _ _ _ HI) _ _ Ht) as (Hidx & _).
      exists p, h. rewrite Hidx. split_and!; [by constructor|by apply rel_hit|done|done|done|done].
  - rewrite (upsert_ghost s k t Hs) in H by (by apply entry_at_ok). cbv zeta in H. apply bind_ok in H as (s1 & H1 & H). injection H as <- <-.
    destruct (rel_ghost_ph LW _ _ _ _ _ _ HR Ht Ha H1) as (Ht1 & Hm1 & q & Hq & HRq).
    eexists _, (Pla k Hot (Plh (hash P k) t (sh_nph s))). split_and!; [by eapply load_ghost|by apply rel_miss|done|done|done|apply (keqb_refl _ LW)].
  - rewrite (upsert_new s k Hs) in H. apply bind_ok in H as ([s1 sh] & H1 & H). injection H as <- <-.
    destruct (rel_new_ph LW _ _ _ _ _ _ HR Ha Hg H1) as (Ht1 & Hm1 & Hun & HRq).
    eexists _, (Pla k Cold sh). split_and!; [by eapply load_new|by apply rel_miss|done|done|done|apply (keqb_refl _ LW)].
Qed.
Lemma rel_unload lim s p h sh s' : Rel lim s p → its_of s !! ph_idx sh = Some (Some (Placeholder h)) → mapped s (ph_idx sh) → p_shared h = sh →
  remove_placeholder s sh = Ok s' → Rel lim s' (put_load p (p_key h) None).
Proof.
  intros [T HR] Ht Hm Hsh H. pose proof (ph_at_pl _ _ _ Ht Hm) as Hph.
  assert (good_handle s sh) as Hgood by (intros h' b Hb _; rewrite Hph in Hb; by injection Hb as <- <-).
  destruct (remove_placeholder_spec LW s sh (R_inv _ _ _ _ HR) Hgood) as (s1 & H1 & HI & _ & Hstat & _ & _ & Hun).
  rewrite H1 in H. injection H as <-.
  assert (sh_ents s1 = sh_ents s ∧ ∀ r, heads s1 r = heads s r) as [He Hh].
  { unfold remove_placeholder in H1. apply bind_ok in H1 as (o & _ & H1). destruct o; injection H1 as <-; split; try done; by intros []. }
  exists T. split; [done| | | |].
  - rewrite (static_cfg _ _ Hstat). apply HR.
  - eapply (LD_del LW s s1 p _ (ph_idx sh) h); [apply HR|apply HR|done|apply (keqb_refl _ LW)|].
    intros t' h'. rewrite Hun. unfold ph_unmap. destruct (decide (t' = ph_idx sh)) as [->|Hne].
    + rewrite Hph, Hsh, same_as_refl. simpl. naive_solver.
    + destruct (ph_at s t') as [[]|]; naive_solver.
  - destruct (R_rings _ _ _ _ HR) as [[fl HRI] Hh0]. split; [exists fl; by rewrite He|]. intros r. by rewrite Hh.
  - unfold its_of. rewrite He. apply HR.
Qed.

(* ---- retain, drain, reserve, new ---- *)
Definition ekeep (f : K → V → bool) e : bool := match e with Resident x => f (r_key x) (r_val x) | _ => true end.
Lemma M_filter its its' T E (g : nat → bool) (keep : entry → bool) : M its T E →
  (∀ t e, its !! t = Some (Some e) → g t = keep e) →
  (∀ t e, its' !! t = Some (Some e) ↔ its !! t = Some (Some e) ∧ keep e = true) →
  M its' (λ pl, List.filter g (T pl)) (λ pl, List.filter keep (E pl)).
Proof.
  intros [H1 H2 H3] Hg Hi. split.
  - intros pl. specialize (H1 pl). induction H1 as [|t e TL EL [Ht Hc] HF IH]; simpl; [constructor|].
    rewrite (Hg _ _ Ht). destruct (keep e) eqn:Hk; [|done]. constructor; [|done]. split; [|done]. by apply Hi.
  - intros pl. apply NoDup_ListNoDup, List.NoDup_filter, NoDup_ListNoDup, H2.
  - intros t e pl [Ht Hk]%Hi Hc. apply elem_of_list_In, filter_In. split; [apply elem_of_list_In; eauto|].
    by rewrite (Hg _ _ Ht).
Qed.
Definition notin (L : list nat) (t : nat) : bool := negb (bool_decide (t ∈ L)).
Lemma filter_without t L (l : list nat) : List.filter (notin L) (without t l) = List.filter (notin (t :: L)) l.
Proof.
  unfold without. induction l as [|a l IH]; simpl; [done|].
  assert (notin (t :: L) a = negb (a =? t)%nat && notin L a) as ->.
  { unfold notin. rewrite <-negb_orb. f_equal. apply eq_true_iff_eq. rewrite orb_true_iff, !bool_decide_eq_true, elem_of_cons, Nat.eqb_eq. done. }
  destruct (a =? t)%nat; simpl; [done|]. destruct (notin L a); simpl; by rewrite IH.
Qed.
Lemma filter_true {A} (l : list A) (g : A → bool) : (∀ a, g a = true) → List.filter g l = l.
Proof. intros Hg. induction l as [|a l IH]; simpl; [done|]. by rewrite Hg, IH. Qed.
Lemma RH_ext s T T' : RH s T → (∀ pl, T pl = T' pl) → RH s T'.
Proof.
  intros [[fl HRI] Hh] HT. split; [|intros r; by rewrite <-HT]. exists fl. destruct HRI as [A1 A2 A3 A4 A5].
  split; [intros r|intros r r' t|intros r t|intros t Ht Hn|done]; rewrite <-?HT; [apply A1|apply A2|apply A3|].
  apply A4; [done|]. intros r. rewrite HT. apply Hn.
Qed.
Lemma retain_rings lim L : ∀ s p T s', RelT lim s p T → NoDup L.*1 →
  (∀ t h, (t, h) ∈ L → ∃ r, its_of s !! t = Some (Some (Resident r)) ∧ h = hash P (r_key r)) →
  retain_remove s L = Ok s' → RH s' (λ pl, List.filter (notin L.*1) (T pl)).
Proof.
  induction L as [|[t h] L IH]; intros s p T s' HR Hnd HL H; simpl in H.
  - injection H as <-. eapply RH_ext; [apply HR|]. intros pl. by rewrite filter_true.
  - csimpl in *. apply NoDup_cons in Hnd as [Hni Hnd]. apply bind_ok in H as ([s1 o] & H1 & H).
    destruct (HL t h ltac:(left)) as (x & Ht & ->).
    pose proof (res_mapped _ _ _ (R_inv _ _ _ _ HR) Ht) as Hm.
    destruct (rel_removeT LW _ _ _ _ _ _ _ _ HR Ht Hm H1) as (_ & q & HRq & _ & Hits).
    eapply RH_ext; [eapply IH; [exact HRq|done| |done]|].
    + intros t' h' Hin. destruct (HL t' h' ltac:(by right)) as (x' & Ht' & ->). exists x'. split; [|done].
      rewrite Hits, list_lookup_insert_ne; [done|]. intros ->. apply Hni. apply elem_of_list_fmap. by exists (t', hash P (r_key x')).
    + intros pl. apply filter_without.
Qed.
Lemma map_filter_res (f : K → V → bool) (L : list item) :
  List.filter (ekeep f) (map Resident L) = map Resident (List.filter (λ x, f (r_key x) (r_val x)) L).
Proof. induction L as [|x L IH]; simpl; [done|]. rewrite IH. by destruct (f _ _). Qed.
Lemma rel_retain lim s p f s' : Rel lim s p → sh_retain s f = Ok s' →
  let keep := List.filter (λ x, f (r_key x) (r_val x)) in
  Rel lim s' (Pol (keep (q_hot p)) (keep (q_cold p)) (keep (q_idle p)) (q_ghosts p) (q_loads p)).
Proof.
  intros [T HR] H. cbv zeta. unfold sh_retain in H. pose proof (R_inv _ _ _ _ HR) as HI.
  assert (NoDup (titer P (sh_map s))) as Hnd.
  { rewrite (titer_perm _ LW). destruct HI as (rs & fl & HI). apply HI. }
  destruct (retain_collect_spec s f _ Hnd) as [Hnd' Hc]. set (L := retain_collect s f (titer P (sh_map s))) in *.
  assert (∀ t h, (t, h) ∈ L → ∃ r, its_of s !! t = Some (Some (Resident r)) ∧ h = hash P (r_key r)) as HL.
  { intros t h Hin. apply Hc in Hin as [_ (r & Ht & -> & _)]. eauto. }
  destruct (retain_remove_spec LW _ s HI Hnd' HL) as (s1 & H1 & HI' & Hst & Hit & _ & Hph & _).
  rewrite H1 in H. injection H as <-. pose proof (retain_rings _ _ _ _ _ _ HR Hnd' HL H1) as Hrh.
  assert (∀ t e, its_of s !! t = Some (Some e) → notin L.*1 t = ekeep f e) as Hg.
  { intros t e Ht. unfold notin. destruct (ekeep f e) eqn:Hk.
    - rewrite bool_decide_false; [done|]. intros ([t' h'] & -> & Hin)%elem_of_list_fmap. simpl in *.
      apply Hc in Hin as [_ (r & Ht' & _ & Hf)]. rewrite Ht in Ht'. injection Ht' as ->. simpl in Hk. congruence.
    - rewrite bool_decide_true; [done|]. destruct e as [x|h|g]; [|done|done]. simpl in Hk. apply elem_of_list_fmap.
      exists (t, hash P (r_key x)). split; [done|]. apply Hc. split; [rewrite (titer_perm _ LW); by eapply res_mapped|]. by exists x. }
  exists (λ pl, List.filter (notin L.*1) (T pl)). split; [done| | |done|].
  - rewrite (static_cfg _ _ Hst). apply HR.
  - eapply LD_ph; [apply HR|done|done].
  - eapply M_ext; [eapply (M_filter _ _ _ _ _ (ekeep f)); [apply HR|exact Hg|]|done|].
    + intros t e. rewrite Hit. case_decide as Hin.
      * split; [congruence|]. intros [Ht Hk]. rewrite <-(Hg _ _ Ht) in Hk. unfold notin in Hk. by rewrite bool_decide_true in Hk.
      * split; [|tauto]. intros Ht. split; [done|]. rewrite <-(Hg _ _ Ht). unfold notin. by rewrite bool_decide_false.
    + intros [[]|]; simpl; [apply map_filter_res|apply map_filter_res| |apply map_filter_res].
      induction (q_ghosts p) as [|g G IH]; simpl; [done|]. by rewrite IH.
Qed.
Lemma rel_empty lim s : Inv s → cfg s = (lm_budget lim, lm_capacity lim, lm_ghosts lim) → (∀ t, ph_at s t = None) →
  sh_ents s = slab_new → (∀ r, heads s r = None) → Rel lim s q_empty.
Proof.
  intros HI Hc Hp He Hh. exists (λ _, []). split; [done|done| | |].
  - intros k k0 st. simpl. split; [done|]. intros (t & h & Ht & _). by rewrite Hp in Ht.
  - split; [exists []; rewrite He; apply RI_new|done].
  - unfold its_of. rewrite He. split; [|constructor|].
    + by intros [[]|]; constructor.
    + intros t e pl Ht. unfold items in Ht. simpl in Ht. by rewrite lookup_nil in Ht.
Qed.
Lemma rel_new budget ghosts cap : Rel (Limits budget ghosts cap) (sh_new (P:=P) budget ghosts cap) q_empty.
Proof.
  apply rel_empty; [apply sh_new_inv|done|done|done|by intros []].
Qed.
Lemma rel_drain lim s p : Rel lim s p → Rel lim (sh_drain s).1 q_empty.
Proof.
  intros [T HR]. destruct (sh_drain_spec s (R_inv _ _ _ _ HR)) as (s' & Hd & HI & Hst & _ & Hp & _). rewrite Hd. simpl.
  assert (s' = (sh_drain s).1) as E by (by rewrite Hd).
  apply rel_empty; [done|rewrite (static_cfg _ _ Hst); apply HR|done|by rewrite E|rewrite E; by intros []].
Qed.
Lemma rel_reserve lim s p s' : Rel lim s p → sh_reserve s = Ok s' → Rel lim s' p.
Proof.
  intros [T HR] H. destruct (sh_reserve_spec s (R_inv _ _ _ _ HR)) as (s1 & H1 & [HI _ Hc Hp _ _ _] & _).
  rewrite H1 in H. injection H as <-. unfold sh_reserve in H1. apply bind_ok in H1 as (m & _ & H1). injection H1 as <-.
  exists T. split; [done|by rewrite Hc; apply HR|eapply LD_ph; [apply HR|done|done]| |apply HR].
  destruct (R_rings _ _ _ _ HR) as [? Hh]. split; [done|]. intros r. rewrite <-Hh. by destruct r.
Qed.

(* ---- the calls ---- *)
Lemma keqb_f k k' : keqb P k k' = true → ∀ k'', keqb P k k'' = keqb P k' k''.
Proof.
  intros H k''. apply eq_true_iff_eq. split; intros H1.
  - eapply (keqb_trans _ LW); [by apply (keqb_sym _ LW)|done].
  - by eapply (keqb_trans _ LW).
Qed.
Lemma used_more_fields x : r_key (used_more x) = r_key x ∧ r_val (used_more x) = r_val x ∧ r_state (used_more x) = r_state x.
Proof. done. Qed.
Lemma rel_bump lim s p x t : Rel lim s p → its_of s !! t = Some (Some (Resident x)) →
  ∃ q, turn p x (used_more x) q ∧ Rel lim (record_hit (set_entry s t (Resident (used_more x)))) q.
Proof.
  intros HR Ht. destruct (rel_same LW _ _ _ x (used_more x) t HR Ht) as (q & Hq & HRq); [done|done|apply (keqb_refl _ LW)|].
  exists q. split; [done|]. by apply rel_hit.
Qed.
Lemma rel_bump_mut lim s p x t f s' seen : Rel lim s p → its_of s !! t = Some (Some (Resident x)) →
  use_refmut (record_hit (set_entry s t (Resident (used_more x)))) (Some (t, rweight x)) f = Ok (s', seen) →
  seen = Some (r_val x) ∧ ∃ q, turn p x (put_val (used_more x) (f (r_val x))) q ∧ Rel lim s' q.
Proof.
  intros HR Ht H.
  refine (rel_refmut LW lim _ (record_hit s) p t x (used_more x) f s' seen (rel_hit _ _ _ HR) Ht _ _ _ _ _ H); [| |done|done|done].
  - change (its_of (set_entry s t (Resident (used_more x))) !! t = Some (Some (Resident (used_more x)))).
    rewrite (its_set_entry _ _ _ _ Ht), list_lookup_insert; [done|]. by eapply lookup_lt_Some.
  - intros e. change (record_hit (set_entry (set_entry s t (Resident (used_more x))) t e) = record_hit (set_entry s t e)).
    by rewrite set_entry_twice.
Qed.
Lemma rel_write lim s p x t f s' seen : Rel lim s p → its_of s !! t = Some (Some (Resident x)) →
  use_refmut s (Some (t, rweight x)) f = Ok (s', seen) →
  seen = Some (r_val x) ∧ ∃ q, turn p x (put_val x (f (r_val x))) q ∧ Rel lim s' q.
Proof. intros HR Ht H. by refine (rel_refmut LW lim s s p t x x f s' seen HR Ht Ht _ _ _ _ H). Qed.
Lemma rel_find lim s p k : Rel lim s p → find_key k (sh_iter s) = None → no_item p k.
Proof.
  intros HR Hf x Hx. rewrite find_key_None in Hf. specialize (Hf (r_key x, r_val x)). simpl in Hf. apply Hf.
  rewrite (rel_iter _ _ _ HR). apply elem_of_list_fmap. by exists x.
Qed.
(* what is found at the token of a finished load *)
Lemma tok_case lim s p k0 k t : Rel lim s p → keqb P k k0 = true → at_tok s k0 t →
  (∃ x, item_of p k x ∧ its_of s !! t = Some (Some (Resident x))) ∨
  (no_item p k ∧ peek_token s t = None ∧ peek_token_mut s t = None).
Proof.
  intros HR Hk H. pose proof (at_tok_peek LW _ _ _ (Rel_inv _ _ _ HR) H) as Hp. pose proof (at_tok_refers _ _ _ (Rel_inv _ _ _ HR) H) as Hr.
  unfold at_tok in H. destruct (find_key k0 (sh_iter s)) as [kv|] eqn:Hf.
  - left. destruct (its_of s !! t) as [[[x| |]|]|] eqn:Ht; try done.
    exists x. split; [|done]. eapply rel_item_of; [done|done|]. by rewrite (keqb_f _ _ Hk).
  - right. pose proof (rel_find _ _ _ _ HR Hf) as Hn. split_and!; [|by rewrite Hp; unfold value_of; rewrite Hf|].
    + intros x Hx. rewrite (keqb_f _ _ Hk). by apply Hn.
    + destruct (peek_token_mut s t) as [[t' w]|]; [|done]. exfalso. destruct Hr as (x & Ht & Hkx & _).
      pose proof (rel_item_of _ _ _ _ _ _ HR Ht Hkx) as [Hx _]. rewrite Hn in Hkx; done.
Qed.
Lemma rel_reads lim s p k0 k t : Rel lim s p → keqb P k k0 = true → at_tok s k0 t → reading p k (peek_token s t).
Proof.
  intros HR Hk H. destruct (tok_case _ _ _ _ _ _ HR Hk H) as [(x & Hx & Ht)|(Hn & -> & _)]; [|by constructor].
  rewrite (peek_token_ok _ _ _ Ht). by constructor.
Qed.
Lemma rel_writes lim s p k0 k t f s' o : Rel lim s p → keqb P k k0 = true → at_tok s k0 t →
  use_refmut s (peek_token_mut s t) f = Ok (s', o) → ∃ q, writing p k f o q ∧ Rel lim s' q.
Proof.
  intros HR Hk H Hu. destruct (tok_case _ _ _ _ _ _ HR Hk H) as [(x & Hx & Ht)|(Hn & _ & Hp)].
  - rewrite (peek_token_mut_ok _ _ _ Ht) in Hu. destruct (rel_write _ _ _ _ _ _ _ _ HR Ht Hu) as (-> & q & Hq & HRq).
    exists q. split; [by eapply writing_item|done].
  - rewrite Hp in Hu. injection Hu as <- <-. exists p. split; [by apply writing_none|done].
Qed.
Lemma rel_guard lim s p rs k h sh g s' o : Rel lim s p → its_of s !! ph_idx sh = Some (Some (Placeholder h)) →
  mapped s (ph_idx sh) → p_shared h = sh → use_guard s rs sh g = Ok (s', o) →
  ∃ q, guard_ends lim p rs (p_key h) (p_hot h) g o q ∧ Rel lim s' q.
Proof.
  intros HR Ht Hm Hsh H. destruct g as [v wl| |]; simpl in H.
  - unfold u_fill in H. apply bind_ok in H as ([[s1 l1] o1] & H1 & H).
    destruct (rel_fill _ _ _ _ _ _ _ _ _ _ _ HR Ht Hm Hsh H1) as (-> & _ & q & Hq & HRq). injection H as <- <-.
    exists q. split; [by constructor|done].
  - apply bind_ok in H as (s1 & H1 & H). injection H as <- <-. eexists. split; [constructor|].
    by eapply rel_unload.
  - injection H as <- <-. exists p. split; [constructor|done].
Qed.
Lemma exec_sim lim s p c s' o : Rel lim s p → exec s c = Ok (s', o) → ∃ q, pstep lim p c o q ∧ Rel lim s' q.
Proof.
  intros HR H. pose proof (Rel_inv _ _ _ HR) as HI. destruct c as [k|k|k|k f|k f|k|rs k v soft wl|rs k v wl|f| | | |rs k w|rs k w f|rs k g|rs k f g]; simpl in H.
  - unfold u_contains in H. rewrite (sh_contains_spec LW s k HI) in H. injection H as <- <-. exists p. split; [|done]. constructor.
    unfold has. destruct (find_key k (sh_iter s)) as [kv|] eqn:Hf.
    + split; [|done]. intros _. apply find_key_Some in Hf as [Hin Hk]. rewrite (rel_iter _ _ _ HR) in Hin.
      apply elem_of_list_fmap in Hin as (x & -> & Hx). by exists x.
    + split; [done|]. intros (x & Hx & Hk). by rewrite (rel_find _ _ _ _ HR Hf) in Hk.
  - unfold u_get, sh_get in H. destruct (search_resident_spec LW s k HI) as (o1 & Hs & Ho). rewrite Hs in H. cbn [rbind] in H.
    destruct o1 as [[t x]|].
    + destruct Ho as (Ht & Hk & _). fold (bump x) in H. rewrite bump_used in H. injection H as <- <-.
      destruct (rel_bump _ _ _ _ _ HR Ht) as (q & Hq & HRq). exists q. split; [|done]. eapply p_hit; [by eapply rel_item_of|done].
    + destruct Ho as [Hn _]. injection H as <- <-. exists p. split; [|by apply rel_miss]. apply p_miss. by apply (rel_no_item _ _ _ _ HR).
  - unfold u_peek, sh_peek in H. destruct (search_resident_spec LW s k HI) as (o1 & Hs & Ho). rewrite Hs in H. cbn [rbind] in H.
    destruct o1 as [[t x]|]; injection H as <- <-; exists p; (split; [|done]); constructor.
    + destruct Ho as (Ht & Hk & _). constructor. by eapply rel_item_of.
    + destruct Ho as [Hn _]. constructor. by apply (rel_no_item _ _ _ _ HR).
  - unfold u_get_mut, sh_get_mut in H. destruct (search_resident_spec LW s k HI) as (o1 & Hs & Ho). rewrite Hs in H. cbn [rbind] in H.
    destruct o1 as [[t x]|].
    + destruct Ho as (Ht & Hk & _). rewrite (entry_at_ok _ _ _ Ht) in H. cbn [rbind] in H. fold (bump x) in H. rewrite bump_used in H.
      apply bind_ok in H as ([s1 seen] & H1 & H). injection H as <- <-.
      destruct (rel_bump_mut _ _ _ _ _ _ _ _ HR Ht H1) as (-> & q & Hq & HRq). exists q. split; [|done].
      eapply p_hit_mut; [by eapply rel_item_of|done].
    + destruct Ho as [Hn _]. injection H as <- <-. exists p. split; [|by apply rel_miss]. apply p_miss_mut. by apply (rel_no_item _ _ _ _ HR).
  - unfold u_peek_mut, sh_peek_mut in H. destruct (search_resident_spec LW s k HI) as (o1 & Hs & Ho). rewrite Hs in H. cbn [rbind] in H.
    destruct o1 as [[t x]|].
    + destruct Ho as (Ht & Hk & _). rewrite (peek_token_mut_ok _ _ _ Ht) in H. apply bind_ok in H as ([s1 seen] & H1 & H). injection H as <- <-.
      destruct (rel_write _ _ _ _ _ _ _ _ HR Ht H1) as (-> & q & Hq & HRq). exists q. split; [|done]. constructor.
      eapply writing_item; [by eapply rel_item_of|done].
    + destruct Ho as [Hn _]. injection H as <- <-. exists p. split; [|done]. constructor. apply writing_none. by apply (rel_no_item _ _ _ _ HR).
  - unfold u_remove, sh_remove in H. apply bind_ok in H as ([s1 o1] & H & H'). injection H' as <- <-.
    destruct (search_spec LW s k HI) as (o2 & Hs & Ho). rewrite Hs in H. cbn [rbind] in H.
    destruct Ho as [t e k' Hm Ht He Hk|t Hm Ht Ha|Ha Hg].
    + pose proof (found_item LW _ _ _ _ _ _ _ HR Hm Ht He Hk) as Hfd. destruct HR as [T HR].
      rewrite <-(ekey_hash LW e k' k He Hk) in H. destruct (rel_removeT LW _ _ _ _ _ _ _ _ HR Ht Hm H) as (-> & q & HRq & Hlv & _).
      destruct e as [x|h|g]; simpl in *; [| |done].
      * exists q. split; [by eapply p_remove_item|by eexists].
      * injection He as <-. eexists. split; [by eapply p_remove_load|]. by apply Hlv.
    + destruct HR as [T HR]. change (hash P k) with (hash_of_entry (Ghost (P:=P) (hash P k))) in H.
      destruct (rel_removeT LW _ _ _ _ _ _ _ _ HR Ht Hm H) as (-> & q & HRq & Hlv & _). destruct Hlv as (A & B & HL & ->).
      eexists. split; [|by eexists]. eapply p_remove_ghost. destruct (found_ghost _ _ _ _ _ _ HR Ht Ha) as (_ & _ & _ & _ & _ & _ & _ & ? & ? & _).
      split_and!; [done|done|]. by exists A, B.
    + injection H as <- <-. exists p. split; [|done]. apply p_remove_none. by eapply found_none.
  - unfold u_replace in H. apply bind_ok in H as ([[s1 l1] o1] & H1 & H). destruct (rel_insert _ _ _ _ _ _ _ _ _ _ HR H1) as (q & Hq & HRq).
    exists q. destruct o1; injection H as <- <-; (split; [|done]); by econstructor.
  - unfold u_insert in H. apply bind_ok in H as ([[s1 l1] o1] & H1 & H). destruct (rel_insert _ _ _ _ _ _ _ _ _ _ HR H1) as (q & Hq & HRq).
    destruct o1; [done|]. injection H as <- <-. exists q. split; [by constructor|done].
  - apply bind_ok in H as (s1 & H1 & H). injection H as <- <-. eexists. split; [apply p_retain|]. by eapply rel_retain.
  - injection H as <- <-. eexists. split; [constructor|]. by eapply rel_drain.
  - injection H as <- <-. eexists. split; [|exact (rel_drain _ _ _ HR)]. constructor. exact (rel_iter _ _ _ HR).
  - apply bind_ok in H as (s1 & H1 & H). injection H as <- <-. exists p. split; [constructor|]. by eapply rel_reserve.
  - unfold u_get_or_insert in H. apply bind_ok in H as ([s1 r] & H1 & H). pose proof (rel_upsert _ _ _ _ _ _ HR H1) as Hr.
    destruct r as [[t v]|[sh u]].
    + destruct Hr as (x & Hx & -> & Ht & ->). destruct (rel_bump _ _ _ _ _ HR Ht) as (q & Hq & HRq). injection H as <- <-.
      exists q. split; [|done]. rewrite (peek_token_ok _ t (used_more x)); [exact (p_load_hit _ _ _ _ _ _ _ Hx Hq)|].
      change (its_of (set_entry s t (Resident (used_more x))) !! t = Some (Some (Resident (used_more x)))).
      rewrite (its_set_entry _ _ _ _ Ht), list_lookup_insert; [done|]. by eapply lookup_lt_Some.
    + destruct Hr as (q1 & h & Hst & HR1 & Ht & Hm & Hsh & Hk). destruct w as [v|].
      * apply bind_ok in H as ([s2 o2] & H2 & H). unfold u_fill in H2. apply bind_ok in H2 as ([[s3 l3] o3] & H3 & H2).
        destruct (rel_fill _ _ _ _ _ _ _ _ _ _ _ HR1 Ht Hm Hsh H3) as (-> & Hat & q & Hq & HRq). injection H2 as <- <-. injection H as <- <-.
        exists q. split; [|done]. eapply p_load; [done|done|]. by eapply rel_reads.
      * injection H as <- <-. exists q1. split; [by eapply p_load_failed|done].
  - unfold u_get_mut_or_insert in H. apply bind_ok in H as ([s1 r] & H1 & H). pose proof (rel_upsert _ _ _ _ _ _ HR H1) as Hr.
    destruct r as [[t v]|[sh u]].
    + destruct Hr as (x & Hx & -> & Ht & ->). apply bind_ok in H as ([s2 seen] & H2 & H). injection H as <- <-.
      rewrite (peek_token_mut_ok _ t (used_more x)) in H2; cycle 1.
      { change (its_of (set_entry s t (Resident (used_more x))) !! t = Some (Some (Resident (used_more x)))).
        rewrite (its_set_entry _ _ _ _ Ht), list_lookup_insert; [done|]. by eapply lookup_lt_Some. }
      destruct (rel_bump_mut _ _ _ _ _ _ _ _ HR Ht H2) as (-> & q & Hq & HRq). exists q. split; [by eapply p_load_hit_mut|done].
    + destruct Hr as (q1 & h & Hst & HR1 & Ht & Hm & Hsh & Hk). destruct w as [v|].
      * apply bind_ok in H as ([s2 o2] & H2 & H). unfold u_fill in H2. apply bind_ok in H2 as ([[s3 l3] o3] & H3 & H2).
        destruct (rel_fill _ _ _ _ _ _ _ _ _ _ _ HR1 Ht Hm Hsh H3) as (-> & Hat & q & Hq & HRq). injection H2 as <- <-.
        apply bind_ok in H as ([s4 seen] & H4 & H). injection H as <- <-.
        destruct (rel_writes _ _ _ _ _ _ _ _ _ HRq Hk Hat H4) as (q' & Hq' & HRq').
        exists q'. split; [by eapply p_load_mut|done].
      * injection H as <- <-. exists q1. split; [by eapply p_load_failed_mut|done].
  - unfold u_ref_or_guard in H. apply bind_ok in H as ([s1 r] & H1 & H). pose proof (rel_upsert _ _ _ _ _ _ HR H1) as Hr.
    destruct r as [[t v]|[sh u]].
    + destruct Hr as (x & Hx & -> & Ht & ->). destruct (rel_bump _ _ _ _ _ HR Ht) as (q & Hq & HRq). injection H as <- <-.
      exists q. split; [by eapply p_guard_hit|done].
    + destruct Hr as (q1 & h & Hst & HR1 & Ht & Hm & Hsh & Hk).
      destruct (rel_guard _ _ _ _ k _ _ _ _ _ HR1 Ht Hm Hsh H) as (q & Hq & HRq). exists q. split; [by eapply p_guard|done].
  - unfold u_mut_or_guard in H. apply bind_ok in H as ([s1 r] & H1 & H). pose proof (rel_upsert _ _ _ _ _ _ HR H1) as Hr.
    destruct r as [[t v]|[sh u]].
    + destruct Hr as (x & Hx & -> & Ht & ->). apply bind_ok in H as ([s2 seen] & H2 & H). injection H as <- <-.
      rewrite (peek_token_mut_ok _ t (used_more x)) in H2; cycle 1.
      { change (its_of (set_entry s t (Resident (used_more x))) !! t = Some (Some (Resident (used_more x)))).
        rewrite (its_set_entry _ _ _ _ Ht), list_lookup_insert; [done|]. by eapply lookup_lt_Some. }
      destruct (rel_bump_mut _ _ _ _ _ _ _ _ HR Ht H2) as (-> & q & Hq & HRq). exists q. split; [by eapply p_guard_hit_mut|done].
    + destruct Hr as (q1 & h & Hst & HR1 & Ht & Hm & Hsh & Hk).
      destruct (rel_guard _ _ _ _ k _ _ _ _ _ HR1 Ht Hm Hsh H) as (q & Hq & HRq). exists q. split; [by eapply p_guard_mut|done].
Qed.
Lemma run_sim lim h : ∀ s p s' os, Rel lim s p → run s h = Ok (s', os) → ∃ q, psteps lim p h os q ∧ Rel lim s' q.
Proof.
  induction h as [|c h IH]; intros s p s' os HR H; simpl in H.
  - injection H as <- <-. exists p. split; [constructor|done].
  - apply bind_ok in H as ([s1 o] & H1 & H). apply bind_ok in H as ([s2 os2] & H2 & H). injection H as <- <-.
    destruct (exec_sim _ _ _ _ _ _ HR H1) as (q1 & Hq1 & HR1). destruct (IH _ _ _ _ HR1 H2) as (q & Hq & HRq).
    exists q. split; [by econstructor|done].
Qed.
End step.
