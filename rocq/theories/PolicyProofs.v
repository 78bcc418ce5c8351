(* The sequential cache follows the machine of Policy.v: the relation between a shard and a state of
   the machine, and the hands. *)
From stdpp Require Import functions.
From Verif Require Export Policy ScanProofs.

Lemma bind_ok {A C} (m : res A) (k : A → res C) c : rbind m k = Ok c → ∃ a, m = Ok a ∧ k a = Ok c.
Proof. destruct m; simpl; [eauto|done]. Qed.

Section policy.
Context {P : Params} (LW : Lawful P).
Notation K := (K P). Notation V := (V P).
Notation entry := (entry P). Notation shard := (shard P). Notation item := (resident P).
Notation place := (option rid).
Implicit Types (s : shard) (l : lcs P) (e : entry) (x y : item) (its : list (option entry)) (k : K) (v : V)
  (rs : rid → list nat) (T : place → list nat) (E : place → list entry) (pl : place) (p q : policy P) (lim : limits).

(* ---- the lists, as lists of tokens ---- *)
Definition pcls e : option place :=
  match e with
  | Resident x => Some (if (rweight x =? 0)%N then None else Some (st_rid (r_state x)))
  | Placeholder _ => None
  | Ghost _ => Some (Some RGhost)
  end.
Definition ent p pl : list entry :=
  match pl with
  | None => map Resident (q_idle p)
  | Some RHot => map Resident (q_hot p)
  | Some RCold => map Resident (q_cold p)
  | Some RGhost => map Ghost (q_ghosts p)
  end.
Record M its T E : Prop := {
  M_img : ∀ pl, Forall2 (λ t e, its !! t = Some (Some e) ∧ pcls e = Some pl) (T pl) (E pl);
  M_nd : ∀ pl, NoDup (T pl);
  M_all : ∀ t e pl, its !! t = Some (Some e) → pcls e = Some pl → t ∈ T pl;
}.
(* its' is its with o at t *)
Definition chg its (t : nat) (o : option entry) its' : Prop :=
  (∀ t' e, t' ≠ t → its' !! t' = Some (Some e) ↔ its !! t' = Some (Some e)) ∧
  (∀ e, its' !! t = Some (Some e) ↔ o = Some e).
Lemma chg_insert its t o : t < length its → chg its t o (<[t := o]> its).
Proof.
  intros H. split.
  - intros t' e Hne. by rewrite list_lookup_insert_ne.
  - intros e. rewrite list_lookup_insert by done. split; congruence.
Qed.
Lemma chg_added its its' t e : added its its' t e → chg its t (Some e) its'.
Proof.
  intros (_ & Ht & Ho & _). split; [intros t' e' Hne; by apply Ho|]. intros e'. rewrite Ht. split; congruence.
Qed.
Lemma M_in its T E t pl : M its T E → t ∈ T pl → ∃ e, its !! t = Some (Some e) ∧ pcls e = Some pl.
Proof.
  intros HM [i Hi]%elem_of_list_lookup. destruct (Forall2_lookup_l _ _ _ _ _ (M_img _ _ _ HM pl) Hi) as (e & _ & He). eauto.
Qed.
Lemma M_notin its T E t pl : M its T E → (∀ e, its !! t = Some (Some e) → pcls e ≠ Some pl) → t ∉ T pl.
Proof. intros HM H Hin. destruct (M_in _ _ _ _ _ HM Hin) as (e & He & Hc). by eapply H. Qed.
Lemma M_split its T E t e pl : M its T E → its !! t = Some (Some e) → pcls e = Some pl →
  ∃ A B EA EB, T pl = A ++ t :: B ∧ E pl = EA ++ e :: EB ∧ length A = length EA.
Proof.
  intros HM Ht Hc. pose proof (M_all _ _ _ HM _ _ _ Ht Hc) as Hin. apply elem_of_list_lookup in Hin as [i Hi].
  pose proof (M_img _ _ _ HM pl) as HF. destruct (Forall2_lookup_l _ _ _ _ _ HF Hi) as (e' & He' & Ht' & _).
  assert (e' = e) as -> by congruence.
  exists (take i (T pl)), (drop (S i) (T pl)), (take i (E pl)), (drop (S i) (E pl)). split_and!.
  - symmetry. by apply take_drop_middle.
  - symmetry. by apply take_drop_middle.
  - apply lookup_lt_Some in Hi, He'. rewrite !take_length. lia.
Qed.
Lemma M_split_E its T E e pl EA EB : M its T E → E pl = EA ++ e :: EB →
  ∃ A t B, T pl = A ++ t :: B ∧ length A = length EA ∧ its !! t = Some (Some e) ∧ pcls e = Some pl.
Proof.
  intros HM HE. pose proof (M_img _ _ _ HM pl) as HF. rewrite HE in HF.
  apply Forall2_app_inv_r in HF as (A & B' & HA & HB & HT). apply Forall2_cons_inv_r in HB as (t & B & [Ht Hc] & HB & ->).
  exists A, t, B. split_and!; [done|by eapply Forall2_length|done|done].
Qed.
Lemma Forall2_chg its its' t o pl (L : list nat) (EL : list entry) : chg its t o its' → t ∉ L →
  Forall2 (λ t e, its !! t = Some (Some e) ∧ pcls e = Some pl) L EL →
  Forall2 (λ t e, its' !! t = Some (Some e) ∧ pcls e = Some pl) L EL.
Proof.
  intros [Hc _] Hn HF. induction HF as [|t' e L EL [Ht' Hp] HF IH]; [constructor|].
  apply not_elem_of_cons in Hn as [Hne Hn]. constructor; [|by apply IH]. split; [|done]. by apply Hc.
Qed.

(* token t leaves list pl *)
Lemma M_leave its its' T E t e pl A B EA EB L EL o : M its T E → chg its t o its' →
  T pl = A ++ t :: B → E pl = EA ++ e :: EB → length A = length EA →
  (∀ e', o = Some e' → pcls e' = None) →
  (L = A ++ B ∧ EL = EA ++ EB) ∨ (L = B ++ A ∧ EL = EB ++ EA) →
  M its' (<[pl := L]> T) (<[pl := EL]> E).
Proof.
  intros HM Hchg HT HE Hlen Ho HL.
  pose proof (M_img _ _ _ HM pl) as HF. rewrite HT, HE in HF. apply Forall2_app_inv in HF as [HA HB]; [|done].
  apply Forall2_cons in HB as [[Ht Hc] HB].
  pose proof (M_nd _ _ _ HM pl) as Hnd. rewrite HT in Hnd.
  assert (NoDup (t :: A ++ B)) as Hnd' by (by rewrite Permutation_middle). apply NoDup_cons in Hnd' as [Hnt HndAB].
  assert (∀ t', t' ∈ L ↔ t' ∈ A ++ B) as HinL.
  { intros t'. destruct HL as [[-> _]|[-> _]]; [done|]. rewrite !elem_of_app. tauto. }
  assert (∀ t' pl', t' ∈ <[pl := L]> T pl' ↔ t' ∈ T pl' ∧ t' ≠ t) as Hin.
  { intros t' pl'. destruct (decide (pl' = pl)) as [->|Hne].
    - rewrite fn_lookup_insert, HinL, HT, elem_of_app, elem_of_app, elem_of_cons. split.
      + intros Hx. split; [tauto|]. intros ->. apply Hnt. by rewrite elem_of_app.
      + intros [[?|[->|?]] ?]; tauto.
    - rewrite fn_lookup_insert_ne by done. split; [|tauto]. intros Hx. split; [done|]. intros ->.
      destruct (M_in _ _ _ _ _ HM Hx) as (e' & He' & Hc'). congruence. }
  split.
  - intros pl'. destruct (decide (pl' = pl)) as [->|Hne].
    + rewrite !fn_lookup_insert. eapply Forall2_chg; [done| |].
      * rewrite HinL. done.
      * destruct HL as [[-> ->]|[-> ->]]; by apply Forall2_app.
    + rewrite !fn_lookup_insert_ne by done. eapply Forall2_chg; [done| |apply HM].
      intros Hx. destruct (M_in _ _ _ _ _ HM Hx) as (e' & He' & Hc'). congruence.
  - intros pl'. destruct (decide (pl' = pl)) as [->|Hne].
    + rewrite fn_lookup_insert. destruct HL as [[-> _]|[-> _]]; [done|]. by rewrite Permutation_app_comm.
    + rewrite fn_lookup_insert_ne by done. apply HM.
  - intros t' e' pl' Ht' Hc'. apply Hin. destruct (decide (t' = t)) as [->|Hne].
    + apply Hchg in Ht'. by rewrite (Ho _ Ht') in Hc'.
    + split; [|done]. apply Hchg in Ht'; [|done]. by eapply (M_all _ _ _ HM).
Qed.
(* token t, on no list, enters list pl at the back *)
Lemma M_enter its its' T E t e pl : M its T E → chg its t (Some e) its' → (∀ pl', t ∉ T pl') → pcls e = Some pl →
  M its' (<[pl := T pl ++ [t]]> T) (<[pl := E pl ++ [e]]> E).
Proof.
  intros HM Hchg Hn Hc. split.
  - intros pl'. destruct (decide (pl' = pl)) as [->|Hne].
    + rewrite !fn_lookup_insert. apply Forall2_app.
      * eapply Forall2_chg; [done|done|apply HM].
      * constructor; [|constructor]. split; [|done]. by apply Hchg.
    + rewrite !fn_lookup_insert_ne by done. eapply Forall2_chg; [done|done|apply HM].
  - intros pl'. destruct (decide (pl' = pl)) as [->|Hne].
    + rewrite fn_lookup_insert. apply NoDup_app. split_and!; [apply HM| |apply NoDup_singleton].
      intros t' Ht' ->%elem_of_list_singleton. by apply (Hn pl).
    + rewrite fn_lookup_insert_ne by done. apply HM.
  - intros t' e' pl' Ht' Hc'. destruct (decide (t' = t)) as [->|Hne].
    + apply Hchg in Ht'. injection Ht' as ->. assert (pl' = pl) as -> by congruence. rewrite fn_lookup_insert.
      rewrite elem_of_app, elem_of_list_singleton. tauto.
    + apply Hchg in Ht'; [|done]. pose proof (M_all _ _ _ HM _ _ _ Ht' Hc') as Hin.
      destruct (decide (pl' = pl)) as [->|Hne2].
      * rewrite fn_lookup_insert, elem_of_app. tauto.
      * by rewrite fn_lookup_insert_ne.
Qed.
(* the entry at t changes but not its list *)
Lemma M_stay its its' T E t e e' pl EA EB A B : M its T E → chg its t (Some e') its' →
  T pl = A ++ t :: B → E pl = EA ++ e :: EB → length A = length EA → pcls e' = Some pl →
  M its' T (<[pl := EA ++ e' :: EB]> E).
Proof.
  intros HM Hchg HT HE Hlen Hc.
  pose proof (M_img _ _ _ HM pl) as HF. rewrite HT, HE in HF. apply Forall2_app_inv in HF as [HA HB]; [|done].
  apply Forall2_cons in HB as [[Ht Hct] HB].
  pose proof (M_nd _ _ _ HM pl) as Hnd. rewrite HT in Hnd.
  assert (NoDup (t :: A ++ B)) as Hnd' by (by rewrite Permutation_middle). apply NoDup_cons in Hnd' as [Hnt HndAB].
  rewrite elem_of_app in Hnt.
  split.
  - intros pl'. destruct (decide (pl' = pl)) as [->|Hne].
    + rewrite fn_lookup_insert, HT. apply Forall2_app; [|constructor].
      * eapply Forall2_chg; [done|tauto|done].
      * split; [by apply Hchg|done].
      * eapply Forall2_chg; [done|tauto|done].
    + rewrite fn_lookup_insert_ne by done. eapply Forall2_chg; [done| |apply HM].
      intros Hx. destruct (M_in _ _ _ _ _ HM Hx) as (e1 & He1 & Hc1). congruence.
  - apply HM.
  - intros t' e1 pl' Ht' Hc1. destruct (decide (t' = t)) as [->|Hne].
    + apply Hchg in Ht'. injection Ht' as <-. assert (pl' = pl) as -> by congruence. rewrite HT, elem_of_app, elem_of_cons. tauto.
    + apply Hchg in Ht'; [|done]. by eapply (M_all _ _ _ HM).
Qed.
(* an entry on no list changes to another on no list *)
Lemma M_other its its' T E t o : M its T E → chg its t o its' → (∀ pl, t ∉ T pl) → (∀ e, o = Some e → pcls e = None) → M its' T E.
Proof.
  intros HM Hchg Hn Ho. split.
  - intros pl. eapply Forall2_chg; [done|done|apply HM].
  - apply HM.
  - intros t' e' pl' Ht' Hc'. destruct (decide (t' = t)) as [->|Hne].
    + apply Hchg in Ht'. by rewrite (Ho _ Ht') in Hc'.
    + apply Hchg in Ht'; [|done]. by eapply (M_all _ _ _ HM).
Qed.
Lemma M_ext its T T' E E' : M its T E → (∀ pl, T pl = T' pl) → (∀ pl, E pl = E' pl) → M its T' E'.
Proof. intros [H1 H2 H3] HT HE. split; intros *; rewrite <-?HT, <-?HE; eauto. Qed.

(* ---- sums over the slab are sums over the lists ---- *)
Definition lsum (f : entry → N) (L : list entry) : N := foldr (λ e n, f e + n)%N 0%N L.
Lemma esum_list (f : entry → N) (L : list nat) (EL : list entry) : ∀ its, NoDup L →
  Forall2 (λ t e, its !! t = Some (Some e)) L EL →
  (∀ t e, its !! t = Some (Some e) → f e ≠ 0%N → t ∈ L) → esum f its = lsum f EL.
Proof.
  revert EL. induction L as [|t L IH]; intros EL its Hnd HF Hall.
  - inversion HF; subst; simpl. apply esum_zero. intros t e Ht. destruct (decide (f e = 0%N)); [done|].
    by destruct (not_elem_of_nil t (Hall _ _ Ht n)).
  - apply Forall2_cons_inv_l in HF as (e & EL' & Ht & HF & ->). apply NoDup_cons in Hnd as [Hn Hnd]. simpl.
    rewrite <-(IH EL' (<[t := None]> its)); [|done| |].
    + rewrite (esum_upd _ _ _ _ _ Ht). simpl. pose proof (esum_ge f _ _ _ Ht). lia.
    + clear -HF Hn. induction HF as [|t' e' L EL Ht' HF IH]; [constructor|]. apply not_elem_of_cons in Hn as [Hne Hn].
      constructor; [|by apply IH]. by rewrite list_lookup_insert_ne.
    + intros t' e' Ht' Hf. destruct (decide (t' = t)) as [->|Hne].
      * rewrite list_lookup_insert in Ht' by (by eapply lookup_lt_Some). done.
      * rewrite list_lookup_insert_ne in Ht' by done. specialize (Hall _ _ Ht' Hf). apply elem_of_cons in Hall as [?|?]; done.
Qed.
Lemma M_sum its T E (f : entry → N) pl : M its T E → (∀ e, f e ≠ 0%N → pcls e = Some pl) → esum f its = lsum f (E pl).
Proof.
  intros HM Hf. eapply esum_list; [apply (M_nd _ _ _ HM pl)| |].
  - eapply Forall2_impl; [apply (M_img _ _ _ HM pl)|]. by intros ?? [??].
  - intros t e Ht Hfe. eapply (M_all _ _ _ HM); [done|]. by apply Hf.
Qed.
Lemma lsum_wof st (L : list item) : Forall (λ x, pcls (Resident x) = Some (Some (st_rid st))) L → lsum (wof st) (map Resident L) = tweight L.
Proof.
  induction 1 as [|x L Hc HF IH]; [done|]. simpl in *. rewrite IH.
  destruct (rweight x =? 0)%N; [done|]. injection Hc as Hc. apply st_rid_inj in Hc.
  rewrite decide_True by done. done.
Qed.
Lemma M_cls its T E pl e : M its T E → e ∈ E pl → pcls e = Some pl.
Proof.
  intros HM [i Hi]%elem_of_list_lookup. by destruct (Forall2_lookup_r _ _ _ _ _ (M_img _ _ _ HM pl) Hi) as (t & _ & _ & ?).
Qed.
Lemma ent_list p st : ent p (Some (st_rid st)) = map Resident (q_list p st).
Proof. by destruct st. Qed.
Lemma M_total its T p st : M its T (ent p) → esum (wof st) its = tweight (q_list p st).
Proof.
  intros HM. rewrite (M_sum _ _ _ _ (Some (st_rid st)) HM).
  - rewrite ent_list. apply lsum_wof. apply Forall_forall. intros x Hx. eapply M_cls; [done|]. rewrite ent_list.
    change (map ?f ?l) with (f <$> l). apply elem_of_list_fmap. eauto.
  - intros [x| |]; simpl; try done. destruct (decide (r_state x = st)) as [<-|]; [|done].
    intros Hw. destruct (N.eqb_spec (rweight x) 0); done.
Qed.
Lemma M_ghosts its T p : M its T (ent p) → esum ghn its = N.of_nat (length (q_ghosts p)).
Proof.
  intros HM. rewrite (M_sum _ _ _ _ (Some RGhost) HM).
  - simpl. induction (q_ghosts p) as [|g G IH]; simpl; [done|]. rewrite IH. lia.
  - intros [| |]; simpl; done.
Qed.

(* ---- the rings ---- *)
Lemma RI_ext (sl : slab entry) rs rs' fl : RI sl rs fl → (∀ r, rs r = rs' r) → RI sl rs' fl.
Proof. intros [H1 H2 H3 H4 H5] He. split; intros *; rewrite <-?He; eauto. intros Ht Hn. apply H4; [done|]. intros r. rewrite He. apply Hn. Qed.
Definition RH s T : Prop := (∃ fl, RI (sh_ents s) (λ r, T (Some r)) fl) ∧ ∀ r, heads s r = head (T (Some r)).
Definition LD s p : Prop := ∀ k k0 st, q_loads p k = Some (k0, st) ↔
  ∃ t h, ph_at s t = Some (h, true) ∧ p_key h = k0 ∧ p_hot h = st ∧ keqb P k k0 = true.
Record RelT lim s p T : Prop := {
  R_inv : Inv s;
  R_cfg : cfg s = (lm_budget lim, lm_capacity lim, lm_ghosts lim);
  R_loads : LD s p;
  R_rings : RH s T;
  R_lists : M (its_of s) T (ent p);
}.
Definition Rel lim s p : Prop := ∃ T, RelT lim s p T.
Lemma Rel_inv lim s p : Rel lim s p → Inv s. Proof. by intros [T []]. Qed.
Lemma Rel_weight lim s p st : Rel lim s p → a_weight (sh_acct s st) = tweight (q_list p st).
Proof.
  intros [T [(rs0 & fl & HI) _ _ _ HM]]. rewrite <-(M_total _ _ _ _ HM). apply HI.
Qed.
Lemma LD_ph s s' p p' : LD s p → (∀ t, ph_at s' t = ph_at s t) → q_loads p' = q_loads p → LD s' p'.
Proof. intros HL Hp Hq k k0 st. rewrite Hq, (HL k k0 st). by setoid_rewrite Hp. Qed.
Lemma cfg_fields lim s : cfg s = (lm_budget lim, lm_capacity lim, lm_ghosts lim) →
  sh_target_hot s = lm_budget lim ∧ sh_capacity s = lm_capacity lim ∧ sh_cap_nr s = lm_ghosts lim.
Proof. unfold cfg. by intros [= -> -> ->]. Qed.

(* ---- taking one use from an item ---- *)
Lemma rel_ref l lim s p p' T t x n pl A B EA EB : RelT lim s p T →
  T pl = A ++ t :: B → ent p pl = EA ++ Resident x :: EB → length A = length EA →
  (∀ pl', ent p' pl' = if decide (pl' = pl) then EA ++ Resident (set_key_ref x n) :: EB else ent p pl') →
  q_loads p' = q_loads p →
  its_of s !! t = Some (Some (Resident x)) ∧ RelT lim (set_entry s t (Resident (set_key_ref x n))) p' T.
Proof.
  intros [HI Hc HL HR HM] HT HE Hlen HE' Hq.
  pose proof (M_img _ _ _ HM pl) as HF. rewrite HT, HE in HF. apply Forall2_app_inv in HF as [HA HB]; [|done].
  apply Forall2_cons in HB as [[Ht Hct] HB]. split; [done|].
  destruct HI as (rs0 & fl0 & HI). destruct (ref_spec LW s rs0 fl0 t x n HI Ht) as [HI' Hrs].
  set (s' := set_entry s t (Resident (set_key_ref x n))) in *.
  split.
  - by exists rs0, fl0.
  - done.
  - eapply LD_ph; [done| |done]. intros t'. eapply (ev_ph _ l _ l). by apply refstep_ev.
  - destruct HR as [[fl HR] Hh]. split.
    + exists fl. by apply (RI_set _ _ _ t _ _ HR Ht).
    + intros r. rewrite <-Hh. by destruct r.
  - assert (its_of s' = <[t := Some (Resident (set_key_ref x n))]> (its_of s)) as Hits by (by eapply its_set_entry).
    rewrite Hits. eapply M_ext; [eapply (M_stay _ _ _ _ t _ (Resident (set_key_ref x n)) pl); [done| |done|done|done|done]|done|].
    + apply chg_insert. by eapply lookup_lt_Some.
    + intros pl'. rewrite HE'. destruct (decide (pl' = pl)) as [->|Hne]; [by rewrite fn_lookup_insert|by rewrite fn_lookup_insert_ne].
Qed.

(* ---- the hot hand ---- *)
Lemma sub_weight_inv s st w s' : sub_weight s st w = Ok s' → sh_ents s' = sh_ents s ∧ ∀ r, heads s' r = heads s r.
Proof.
  unfold sub_weight. intros H. apply bind_ok in H as (w' & _ & H). injection H as <-.
  split; [by destruct st|]. by intros []; destruct st.
Qed.
Lemma add_weight_inv s st w s' : add_weight s st w = Ok s' → sh_ents s' = sh_ents s ∧ ∀ r, heads s' r = heads s r.
Proof.
  unfold add_weight. intros H. apply bind_ok in H as (w' & _ & H). injection H as <-.
  split; [by destruct st|]. by intros []; destruct st.
Qed.
Lemma dec_num_inv s st s' : dec_num s st = Ok s' → sh_ents s' = sh_ents s ∧ ∀ r, heads s' r = heads s r.
Proof.
  unfold dec_num. intros H. apply bind_ok in H as (w' & _ & H). injection H as <-.
  split; [by destruct st|]. by intros []; destruct st.
Qed.
Lemma inc_num_inv s st : sh_ents (inc_num s st) = sh_ents s ∧ ∀ r, heads (inc_num s st) r = heads s r.
Proof. split; [by destruct st|]. by intros []; destruct st. Qed.
Lemma map_remove_inv s h t s' : map_remove s h t = Ok s' → sh_ents s' = sh_ents s ∧ ∀ r, heads s' r = heads s r.
Proof.
  unfold map_remove. intros H. apply bind_ok in H as (o & _ & H). destruct o; [|by destruct is_debug; simplify_eq].
  injection H as <-. split; [done|by intros []].
Qed.
Definition RS0 s rs : Prop := ∃ fl, RI (sh_ents s) rs fl.

Lemma hot_evict_inv s l t x s' l' b T A B : RH s T → T (Some RHot) = A ++ t :: B →
  its_of s !! t = Some (Some (Resident x)) →
  hot_evict s l t x = Ok (s', l', b) →
  let '(l1, v1) := call_before l (r_key x) (r_val x) in
  b = true ∧ RH s' (<[Some RHot := B ++ A]> T) ∧
  if (weight P (r_key x) v1 =? 0)%N then l' = l1 ∧ its_of s' = <[t := Some (Resident (set_rval x v1))]> (its_of s)
  else l' = call_evict l1 (r_key x) v1 ∧ its_of s' = <[t := None]> (its_of s).
Proof.
  intros [[fl HR] Hh] HT Ht H. unfold hot_evict in H. apply bind_ok in H as (s1 & Hs1 & H).
  apply sub_weight_inv in Hs1 as [He1 Hh1]. destruct (call_before l (r_key x) (r_val x)) as [l1 v1] eqn:Hb. unfold rweight in H. simpl in H.
  destruct (RI_set _ _ _ t (Resident (set_rval x v1)) _ HR Ht) as [Hit HR1].
  destruct (weight P (r_key x) v1 =? 0)%N.
  - apply bind_ok in H as ([es h] & Hu & H). injection H as <- <- <-. rewrite He1 in Hu.
    destruct (RI_unlink _ _ _ _ RHot A B HR1 HT) as (sl' & Hu' & Hi' & HR'). rewrite Hu' in Hu. injection Hu as <- <-.
    split_and!; [done| |done|].
    + split; simpl.
      * exists fl. eapply RI_ext; [exact HR'|]. intros r. unfold rupd. destruct (decide _) as [->|Hne]; [by rewrite fn_lookup_insert|].
        by rewrite fn_lookup_insert_ne by congruence.
      * intros r. specialize (Hh r). rewrite <-Hh1 in Hh. destruct r; simpl in *; rewrite ?fn_lookup_insert, ?fn_lookup_insert_ne by done; done.
    + unfold its_of. simpl. by rewrite Hi', Hit.
  - apply bind_ok in H as (s2 & Hs2 & H). apply dec_num_inv in Hs2 as [He2 Hh2]. simpl in He2.
    apply bind_ok in H as ([es o] & Hu & H). rewrite He2, He1 in Hu.
    destruct (RI_remove _ _ _ _ RHot A B (Resident (set_rval x v1)) HR1 HT) as (sl' & Hu' & Hi' & HR').
    { rewrite Hit. apply list_lookup_insert. by eapply lookup_lt_Some. }
    rewrite Hu' in Hu. injection Hu as <- <-. cbv beta iota in H.
    apply bind_ok in H as (s3 & Hs3 & H). injection H as <- <- <-. apply map_remove_inv in Hs3 as [He3 Hh3]. simpl in He3.
    split_and!; [done| |done|].
    + split; simpl.
      * rewrite He3. exists (t :: fl). eapply RI_ext; [exact HR'|]. intros r. unfold rupd. destruct (decide _) as [->|Hne]; [by rewrite fn_lookup_insert|].
        by rewrite fn_lookup_insert_ne by congruence.
      * intros r. rewrite Hh3. specialize (Hh r). rewrite <-Hh1 in Hh. specialize (Hh2 r).
        destruct r; simpl in *; rewrite ?fn_lookup_insert, ?fn_lookup_insert_ne by done; congruence.
    + unfold its_of. rewrite He3, Hi', Hit. by rewrite list_insert_insert.
Qed.

Lemma chg_ins2 its t o1 o : t < length its → chg (<[t := o1]> its) t o (<[t := o]> its).
Proof.
  intros H. rewrite <-(list_insert_insert its t o o1). apply chg_insert. by rewrite insert_length.
Qed.
Lemma M_move its T E t e e' pl pl' A B EA EB L EL : M its T E → t < length its →
  T pl = A ++ t :: B → E pl = EA ++ e :: EB → length A = length EA →
  (L = A ++ B ∧ EL = EA ++ EB) ∨ (L = B ++ A ∧ EL = EB ++ EA) → pcls e' = Some pl' → pl' ≠ pl →
  M (<[t := Some e']> its) (<[pl' := T pl' ++ [t]]> (<[pl := L]> T)) (<[pl' := E pl' ++ [e']]> (<[pl := EL]> E)).
Proof.
  intros HM Hlt HT HE Hlen HL Hc Hne.
  assert (M (<[t := None]> its) (<[pl := L]> T) (<[pl := EL]> E)) as HM1.
  { eapply M_leave; [done|by apply chg_insert|done|done|done|done|done]. }
  pose proof (M_enter _ (<[t := Some e']> its) _ _ t e' pl' HM1) as H. rewrite !fn_lookup_insert_ne in H by done.
  apply H; [by apply chg_ins2| |done].
  intros pl0 Hin. destruct (M_in _ _ _ _ _ HM1 Hin) as (e0 & He0 & _). by rewrite list_lookup_insert in He0.
Qed.
Ltac fins := intros pl'; destruct pl' as [[]|]; rewrite ?fn_lookup_insert, ?fn_lookup_insert_ne by done; simpl; rewrite ?map_app; try done.

Lemma rel_hot_out lim s p T TA t TB A x B l s' l' b : RelT lim s p T →
  T (Some RHot) = TA ++ t :: TB → q_hot p = A ++ x :: B → length TA = length A → rpinned x = false →
  hot_evict s l t x = Ok (s', l', b) → b = true ∧ ∃ q, drop_hot (put_hot p (B ++ A)) l x = (q, l') ∧ Rel lim s' q.
Proof.
  intros [HI Hc HL HR HM] HT HE Hlen Hpin He.
  assert (ent p (Some RHot) = map Resident A ++ Resident x :: map Resident B) as HE' by (simpl; by rewrite HE, map_app).
  pose proof (M_img _ _ _ HM (Some RHot)) as HF. rewrite HT, HE' in HF. apply Forall2_app_inv in HF as [HA HB]; [|by rewrite map_length].
  apply Forall2_cons in HB as [[Ht Hct] _]. assert (t < length (its_of s)) as Hlt by by eapply lookup_lt_Some.
  pose proof (hot_evict_inv _ _ _ _ _ _ _ _ _ _ HR HT Ht He) as Hinv.
  assert (Inv s' ∧ ev_post s l s' l') as [HI' Hev].
  { destruct HI as (rs0 & fl0 & HI0). simpl in Hct. destruct (N.eqb_spec (rweight x) 0) as [|Hw]; [done|].
    pose proof (inv_ring _ _ _ _ _ HI0 Ht Hw) as Hin.
    destruct (r_state x) eqn:Hst; [|done]. simpl in Hin. apply elem_of_list_split in Hin as (A0 & B0 & HAB).
    destruct (hot_evict_spec LW s l rs0 fl0 t x A0 B0 HI0 HAB Ht Hpin) as (s1 & l1 & E1 & HI1 & Hev1 & _).
    rewrite E1 in He. by injection He as <- <- <-. }
  unfold drop_hot. destruct (call_before l (r_key x) (r_val x)) as [l1 v1] eqn:Hb.
  destruct Hinv as (-> & HR' & Hif). split; [done|].
  destruct (ev_cfg _ _ _ _ Hev) as (Hcfg & _ & _).
  unfold weightless. simpl.
  destruct (N.eqb_spec (weight P (r_key x) v1) 0) as [Hz|Hz]; destruct Hif as [-> Hits].
  - eexists; split; [done|]. eexists. split; [done|congruence| | |].
    + eapply LD_ph; [done|intros; by eapply ev_ph|done].
    + assert (RH s' (<[None := T None ++ [t]]> (<[Some RHot := TB ++ TA]> T))) as HR2.
      { destruct HR' as [[fl HR1] Hh1]. split; [exists fl; eapply RI_ext; [exact HR1|]|]; intros r; by rewrite (fn_lookup_insert_ne _ None) by done. }
      exact HR2.
    + rewrite Hits. eapply M_ext; [eapply (M_move _ _ _ t _ (Resident (set_rval x v1)) (Some RHot) None); [done|done|done|done|by rewrite map_length|by right| |done]|done|].
      * simpl. unfold rweight. simpl. by rewrite Hz.
      * fins.
  - eexists; split; [done|]. eexists. split; [done|congruence| |done|].
    + eapply LD_ph; [done|intros; by eapply ev_ph|done].
    + rewrite Hits. eapply M_ext; [eapply (M_leave _ _ _ _ t _ (Some RHot)); [done|by apply chg_insert|done|done|by rewrite map_length|done|by right]|done|].
      fins.
Qed.

Lemma nodup_head (A : list nat) t n B : NoDup (A ++ t :: B) → Some n = head (B ++ A ++ [t]) →
  Some n = head (A ++ t :: B) ↔ B = [].
Proof.
  intros Hnd Hn. split.
  - destruct B as [|b B]; [done|]. simpl in Hn. injection Hn as ->. intros Hh. exfalso.
    destruct A as [|a A]; simpl in *.
    + injection Hh as ->. apply NoDup_cons in Hnd as [Hn _]. apply Hn. left.
    + injection Hh as ->. apply NoDup_cons in Hnd as [Hn _]. apply Hn. rewrite elem_of_app, !elem_of_cons. tauto.
  - intros ->. rewrite Hn. by destruct A.
Qed.
Lemma clock_sim lim p fuel : ∀ s l T TA t TB A x B n s' l' b, RelT lim s (put_hot p (A ++ x :: B)) T →
  T (Some RHot) = TA ++ t :: TB → length TA = length A →
  advance_hot_loop fuel s l t n = Ok (s', l', b) →
  ∃ L o, clock (negb (n =? 0)%N) A (x :: B) L o ∧
    match o with
    | None => b = false ∧ l' = l ∧ Rel lim s' (put_hot p L)
    | Some y => b = true ∧ ∃ q, drop_hot (put_hot p L) l y = (q, l') ∧ Rel lim s' q
    end.
Proof.
  induction fuel as [|fuel IH]; intros s l T TA t TB A x B n s' l' b HR HT Hlen H; [done|]. cbn [advance_hot_loop] in H.
  destruct (R_rings _ _ _ _ HR) as [[fl HRI] Hh].
  destruct (RI_get _ _ _ RHot TA t TB HRI HT) as (e & nx & Hg & Hit & Hnx). rewrite Hg in H. cbn [unwrap rbind] in H.
  assert (ent (put_hot p (A ++ x :: B)) (Some RHot) = map Resident A ++ Resident x :: map Resident B) as HE by (simpl; by rewrite map_app).
  assert (e = Resident x) as ->.
  { pose proof (M_img _ _ _ (R_lists _ _ _ _ HR) (Some RHot)) as HF. rewrite HT, HE in HF. apply Forall2_app_inv in HF as [HA HB]; [|by rewrite map_length].
    apply Forall2_cons in HB as [[Ht Hct] _]. unfold its_of in Ht. congruence. }
  apply bind_ok in H as ([] & _ & H).
  assert (∀ m, RelT lim (set_entry s t (Resident (set_key_ref x m))) (put_hot p (A ++ set_key_ref x m :: B)) T) as Href.
  { intros m. eapply (rel_ref l); [exact HR|exact HT|exact HE|by rewrite map_length| |done].
    intros pl'. destruct pl' as [[]|]; simpl; rewrite ?decide_True, ?decide_False by done; rewrite ?map_app; done. }
  specialize (Href (N.min (r_ref x) MAX_F - 1)%N). change (set_key_ref x (N.min (r_ref x) MAX_F - 1)) with (used_less x) in *.
  set (s1 := set_entry s t (Resident (used_less x))) in *.
  assert (∀ n1 s' l' b, advance_hot_loop fuel s1 l nx n1 = Ok (s', l', b) →
     ∃ L o, clock (negb (n1 =? 0)%N) (A ++ [used_less x]) B L o ∧
      match o with
      | None => b = false ∧ l' = l ∧ Rel lim s' (put_hot p L)
      | Some y => b = true ∧ ∃ q, drop_hot (put_hot p L) l y = (q, l') ∧ Rel lim s' q
      end) as Hgo.
  { clear H s' l' b. intros n1 s' l' b H.
    assert (length TB = length B) as HlB.
    { pose proof (Forall2_length _ _ _ (M_img _ _ _ (R_lists _ _ _ _ HR) (Some RHot))) as HF. rewrite HT, HE in HF.
      rewrite !app_length in HF. simpl in HF. rewrite !map_length in HF. lia. }
    destruct TB as [|t' TB], B as [|y B]; try done.
    - (* next round *)
      destruct (TA ++ [t]) as [|a TA'] eqn:ETA; [by destruct TA|]. simpl in Hnx. injection Hnx as ->.
      destruct (A ++ [used_less x]) as [|y A'] eqn:EA; [by destruct A|].
      destruct (IH s1 l T [] a TA' [] y A' n1 s' l' b) as (L & o & Hcl & Ho); [done|by rewrite HT|done|done|].
      exists L, o. split; [|done]. apply clock_round; [done|exact Hcl].
    - simpl in Hnx. injection Hnx as ->.
      destruct (IH s1 l T (TA ++ [t]) t' TB (A ++ [used_less x]) y B n1 s' l' b) as (L & o & Hcl & Ho).
      { by rewrite <-(assoc_L (++)). }
      { by rewrite HT, <-(assoc_L (++)). }
      { rewrite !app_length. simpl. lia. }
      { done. }
      eauto. }
  destruct (rpinned x) eqn:Hpin.
  - destruct (_ && _) eqn:Hstop in H.
    + injection H as <- <- <-. apply andb_true_iff in Hstop as [Hz Hhd]. apply N.eqb_eq in Hz as ->. apply bool_decide_eq_true in Hhd.
      assert (TB = []) as ->.
      { change (a_head (sh_hot s1)) with (a_head (sh_hot s)) in Hhd. pose proof (Hh RHot) as Hh'. simpl in Hh'. rewrite Hh' in Hhd.
        rewrite HT in Hhd. eapply nodup_head; [|done|done]. rewrite <-HT. apply (M_nd _ _ _ (R_lists _ _ _ _ HR)). }
      assert (B = []) as ->.
      { pose proof (Forall2_length _ _ _ (M_img _ _ _ (R_lists _ _ _ _ HR) (Some RHot))) as HF. rewrite HT, HE in HF.
        rewrite !app_length in HF. simpl in HF. rewrite !map_length in HF. destruct B; [done|simpl in HF; lia]. }
      eexists _, None. split; [by apply clock_give_up|]. split_and!; [done|done|]. by exists T.
    + destruct (Hgo _ _ _ _ H) as (L & o & Hcl & Ho). exists L, o. split; [|done]. apply clock_pinned; [done| |done].
      apply andb_false_iff in Hstop as [Hz|Hhd]; [left; by rewrite Hz|]. right. intros ->. apply bool_decide_eq_false in Hhd. apply Hhd.
      change (a_head (sh_hot s1)) with (a_head (sh_hot s)). pose proof (Hh RHot) as Hh'. simpl in Hh'. rewrite Hh', HT.
      eapply nodup_head; [|done|].
      * rewrite <-HT. apply (M_nd _ _ _ (R_lists _ _ _ _ HR)).
      * pose proof (Forall2_length _ _ _ (M_img _ _ _ (R_lists _ _ _ _ HR) (Some RHot))) as HF. rewrite HT, HE in HF.
        rewrite !app_length in HF. simpl in HF. rewrite !map_length in HF. destruct TB; [done|simpl in HF; lia].
  - destruct (N.eqb_spec (r_ref x) 0) as [Hz|Hz]; cbn [negb] in H.
    + destruct (rel_hot_out _ _ _ _ _ _ _ A x B _ _ _ _ HR HT ltac:(done) Hlen Hpin H) as (-> & q & Hd & Hq).
      eexists _, (Some x). split; [by apply clock_take|]. split; [done|]. exists q. done.
    + destruct (Hgo _ _ _ _ H) as (L & o & Hcl & Ho). exists L, o. split; [|done]. apply clock_used; [done|done|].
      by replace (negb (n + 1 =? 0)%N) with true in Hcl by (by destruct (N.eqb_spec (n + 1) 0); [lia|]).
Qed.
Lemma hot_hand_sim lim s p l s' l' b : Rel lim s p → advance_hot s l = Ok (s', l', b) →
  ∃ q, hot_hand p l q l' b ∧ Rel lim s' q.
Proof.
  intros [T HR] H. unfold advance_hot in H. pose proof (proj2 (R_rings _ _ _ _ HR) RHot) as Hh. simpl in Hh. rewrite Hh in H.
  pose proof (Forall2_length _ _ _ (M_img _ _ _ (R_lists _ _ _ _ HR) (Some RHot))) as Hlen. simpl in Hlen. rewrite map_length in Hlen.
  destruct (T (Some RHot)) as [|t TB] eqn:HT; simpl in H.
  - injection H as <- <- <-. exists p. split; [|by exists T]. apply hot_none. by destruct (q_hot p).
  - destruct (q_hot p) as [|x B] eqn:Hq; [done|].
    assert (RelT lim s (put_hot p ([] ++ x :: B)) T) as HR'.
    { simpl. rewrite <-Hq. by destruct p. }
    destruct (clock_sim lim p _ _ _ _ [] _ _ [] _ _ _ _ _ _ HR' HT eq_refl H) as (L & o & Hcl & Ho).
    simpl in Hcl. destruct o as [y|].
    + destruct Ho as (-> & q & Hd & HRq). exists q. split; [|done]. eapply hot_out; [by rewrite Hq|done].
    + destruct Ho as (-> & -> & HRq). eexists. split; [|done]. eapply hot_stuck; [by rewrite Hq|by rewrite Hq].
Qed.
Lemma trim_sim lim fuel : ∀ s p l s' l', Rel lim s p → trim_hot fuel s l = Ok (s', l') → ∃ q, trim lim p l q l' ∧ Rel lim s' q.
Proof.
  induction fuel as [|fuel IH]; intros s p l s' l' HR H; [done|]. cbn [trim_hot] in H.
  pose proof (Rel_weight _ _ _ Hot HR) as Hw. simpl in Hw.
  assert (sh_target_hot s = lm_budget lim) as Hb by (destruct HR as [T HR]; by apply (cfg_fields lim), (R_cfg _ _ _ _ HR)).
  rewrite Hw, Hb in H. destruct (N.ltb_spec (lm_budget lim) (tweight (q_hot p))) as [Hlt|Hge].
  - apply bind_ok in H as ([[s1 l1] b] & H1 & H). destruct (hot_hand_sim _ _ _ _ _ _ _ HR H1) as (q1 & Hq1 & HR1). destruct b.
    + destruct (IH _ _ _ _ _ HR1 H) as (q & Hq & HRq). exists q. split; [|done]. by eapply trim_more.
    + injection H as <- <-. exists q1. split; [|done]. by eapply trim_stuck.
  - injection H as <- <-. exists p. split; [|done]. by apply trim_done.
Qed.

(* ---- the cold hand ---- *)
Lemma advance_ghost_inv s s' T g G : RH s T → T (Some RGhost) = g :: G → advance_ghost s = Ok s' →
  RH s' (<[Some RGhost := G]> T) ∧ its_of s' = <[g := None]> (its_of s).
Proof.
  intros [[fl HR] Hh] HT H. unfold advance_ghost in H. apply bind_ok in H as ([] & _ & H).
  pose proof (Hh RGhost) as Hg. simpl in Hg. rewrite Hg, HT in H. cbn [head unwrap rbind] in H.
  apply bind_ok in H as (e & He & H). destruct e as [| |h0]; try done.
  apply bind_ok in H as (s1 & Hs1 & H). unfold dec_nnr in Hs1. apply bind_ok in Hs1 as (n & _ & Hs1). injection Hs1 as <-.
  apply bind_ok in H as (s2 & Hs2 & H). apply map_remove_inv in Hs2 as [He2 Hh2]. simpl in He2.
  apply bind_ok in H as ([es o] & Hr & H). rewrite He2 in Hr.
  destruct (ri_live _ _ _ HR RGhost g) as [e Hi]; [rewrite HT; left|].
  destruct (RI_remove _ _ _ _ RGhost [] G _ HR HT Hi) as (sl' & Hr' & Hi' & HR'). rewrite Hr' in Hr. injection Hr as <- <-.
  cbn [unwrap rbind] in H. injection H as <-. rewrite app_nil_r in *. split; [|done]. split.
  - exists (g :: fl). eapply RI_ext; [exact HR'|]. intros r. unfold rupd. destruct (decide _) as [->|Hne]; [by rewrite fn_lookup_insert|].
    by rewrite fn_lookup_insert_ne by congruence.
  - intros r. specialize (Hh r). specialize (Hh2 r). destruct r; simpl in *; rewrite ?fn_lookup_insert, ?fn_lookup_insert_ne by done; congruence.
Qed.
Ltac rins := intros r; unfold rupd; repeat (case_decide; subst); rewrite ?fn_lookup_insert, ?fn_lookup_insert_ne by congruence; try done.
Lemma cold_evict_inv s l t x s' l' b T A B : RH s T → T (Some RCold) = A ++ t :: B →
  its_of s !! t = Some (Some (Resident x)) →
  cold_evict s l t x = Ok (s', l', b) →
  let '(l1, v1) := call_before l (r_key x) (r_val x) in
  b = true ∧
  if (weight P (r_key x) v1 =? 0)%N then
    l' = l1 ∧ its_of s' = <[t := Some (Resident (set_rval x v1))]> (its_of s) ∧ RH s' (<[Some RCold := B ++ A]> T)
  else l' = call_evict l1 (r_key x) v1 ∧
    if (sh_cap_nr s <? sh_nnr s + 1)%N then
      ∃ g G, T (Some RGhost) ++ [t] = g :: G ∧ RH s' (<[Some RGhost := G]> (<[Some RCold := B ++ A]> T)) ∧
        its_of s' = <[g := None]> (<[t := Some (Ghost (hash P (r_key x)))]> (its_of s))
    else RH s' (<[Some RGhost := T (Some RGhost) ++ [t]]> (<[Some RCold := B ++ A]> T)) ∧
      its_of s' = <[t := Some (Ghost (hash P (r_key x)))]> (its_of s).
Proof.
  intros [[fl HR] Hh] HT Ht H. assert (t < length (its_of s)) as Hlt by by eapply lookup_lt_Some.
  unfold cold_evict in H. apply bind_ok in H as (s1 & Hs1 & H).
  assert (sh_nnr s1 = sh_nnr s ∧ sh_cap_nr s1 = sh_cap_nr s) as [Hn1 Hc1].
  { unfold sub_weight in Hs1. apply bind_ok in Hs1 as (? & _ & Hs1). by injection Hs1 as <-. }
  apply sub_weight_inv in Hs1 as [He1 Hh1]. destruct (call_before l (r_key x) (r_val x)) as [l1 v1] eqn:Hb. unfold rweight in H. simpl in H.
  destruct (RI_set _ _ _ t (Resident (set_rval x v1)) _ HR Ht) as [Hit HR1].
  destruct (weight P (r_key x) v1 =? 0)%N.
  - apply bind_ok in H as ([es h] & Hu & H). injection H as <- <- <-. rewrite He1 in Hu.
    destruct (RI_unlink _ _ _ _ RCold A B HR1 HT) as (sl' & Hu' & Hi' & HR'). rewrite Hu' in Hu. injection Hu as <- <-.
    split_and!; [done|done| |].
    + unfold its_of. simpl. by rewrite Hi', Hit.
    + split; simpl.
      * exists fl. eapply RI_ext; [exact HR'|]. rins.
      * intros r. specialize (Hh r). rewrite <-Hh1 in Hh. destruct r; simpl in *; rewrite ?fn_lookup_insert, ?fn_lookup_insert_ne by done; done.
  - destruct (RI_set _ _ _ t (Ghost (hash P (r_key x))) (Resident (set_rval x v1)) HR1) as [Hit2 HR2].
    { rewrite Hit. by apply list_lookup_insert. }
    apply bind_ok in H as ([es h] & Hu & H). rewrite He1 in Hu.
    destruct (RI_unlink _ _ _ _ RCold A B HR2 HT) as (sl' & Hu' & Hi' & HR'). rewrite Hu' in Hu. injection Hu as <- <-.
    apply bind_ok in H as ([es h] & Hk & H). simpl in Hk.
    destruct (RI_link sl' _ _ t RGhost HR') as (sl2 & Hlk & Hit3 & HR3).
    { exists (Ghost (hash P (r_key x))). rewrite Hi', Hit2. apply list_lookup_insert. by rewrite Hit, insert_length. }
    { intros r. by eapply leave_notin. }
    rewrite rupd_ne in Hlk, HR3 by done.
    assert (sh_ghost_head s1 = head (T (Some RGhost))) as Hg by (rewrite <-(Hh RGhost); apply (Hh1 RGhost)).
    rewrite Hg, Hlk in Hk. injection Hk as <- <-.
    apply bind_ok in H as (s2 & Hs2 & H).
    assert (sh_nnr s2 = sh_nnr s1 ∧ sh_cap_nr s2 = sh_cap_nr s1) as [Hn2 Hc2].
    { unfold dec_num in Hs2. apply bind_ok in Hs2 as (? & _ & Hs2). by injection Hs2 as <-. }
    apply dec_num_inv in Hs2 as [He2 Hh2]. simpl in He2.
    set (s3 := set_nnr s2 (sh_nnr s2 + 1)) in *.
    apply bind_ok in H as (s4 & Hs4 & H). injection H as <- <- <-.
    change (sh_cap_nr s3) with (sh_cap_nr s2) in Hs4. change (sh_nnr s3) with (sh_nnr s2 + 1)%N in Hs4. rewrite Hn2, Hc2, Hn1, Hc1 in Hs4.
    assert (its_of s3 = <[t := Some (Ghost (hash P (r_key x)))]> (its_of s)) as Hits3.
    { unfold its_of, s3. simpl. rewrite He2, Hit3, Hi', Hit2, Hit. by rewrite list_insert_insert. }
    assert (RH s3 (<[Some RGhost := T (Some RGhost) ++ [t]]> (<[Some RCold := B ++ A]> T))) as HRH3.
    { split.
      - exists fl. unfold s3; simpl. rewrite He2. eapply RI_ext; [exact HR3|]. rins.
      - intros r. specialize (Hh r). specialize (Hh1 r). specialize (Hh2 r).
        destruct r; simpl in *; rewrite ?fn_lookup_insert, ?fn_lookup_insert_ne by done; try congruence.
        + rewrite fn_lookup_insert. congruence.
        + rewrite Hh2. by destruct (T (Some RGhost)). }
    split_and!; [done|done|].
    destruct (sh_cap_nr s <? sh_nnr s + 1)%N.
    + destruct (T (Some RGhost) ++ [t]) as [|g G] eqn:EG; [by destruct (T (Some RGhost))|].
      destruct (advance_ghost_inv _ _ _ g G HRH3 (fn_lookup_insert _ _ _) Hs4) as [HRH4 Hits4].
      exists g, G. split_and!; [done| |by rewrite Hits4, Hits3].
      destruct HRH4 as [[fl4 HR4] Hh4]. split; [exists fl4; eapply RI_ext; [exact HR4|]|]; intros r.
      * destruct (decide (r = RGhost)) as [->|Hne]; [by rewrite !fn_lookup_insert|]. by rewrite !(fn_lookup_insert_ne _ (Some RGhost)) by congruence.
      * rewrite Hh4. destruct (decide (r = RGhost)) as [->|Hne]; [by rewrite !fn_lookup_insert|]. by rewrite !(fn_lookup_insert_ne _ (Some RGhost)) by congruence.
    + injection Hs4 as <-. done.
Qed.

Lemma rel_cold_out lim s p T TA t TB A x B l s' l' b : RelT lim s p T →
  T (Some RCold) = TA ++ t :: TB → q_cold p = A ++ x :: B → length TA = length A → rpinned x = false →
  cold_evict s l t x = Ok (s', l', b) → b = true ∧ ∃ q, drop_cold lim (put_cold p (B ++ A)) l x = (q, l') ∧ Rel lim s' q.
Proof.
  intros [HI Hc HL HR HM] HT HE Hlen Hpin He.
  assert (ent p (Some RCold) = map Resident A ++ Resident x :: map Resident B) as HE' by (simpl; by rewrite HE, map_app).
  pose proof (M_img _ _ _ HM (Some RCold)) as HF. rewrite HT, HE' in HF. apply Forall2_app_inv in HF as [HA HB]; [|by rewrite map_length].
  apply Forall2_cons in HB as [[Ht Hct] _]. assert (t < length (its_of s)) as Hlt by by eapply lookup_lt_Some.
  pose proof (cold_evict_inv _ _ _ _ _ _ _ _ _ _ HR HT Ht He) as Hinv.
  assert (Inv s' ∧ ev_post s l s' l') as [HI' Hev].
  { destruct HI as (rs0 & fl0 & HI0). simpl in Hct. destruct (N.eqb_spec (rweight x) 0) as [|Hw]; [done|].
    pose proof (inv_ring _ _ _ _ _ HI0 Ht Hw) as Hin.
    destruct (r_state x) eqn:Hst; [done|]. simpl in Hin. apply elem_of_list_split in Hin as (A0 & B0 & HAB).
    destruct (cold_evict_spec LW s l rs0 fl0 t x A0 B0 HI0 HAB Ht Hpin) as (s1 & l1 & E1 & HI1 & Hev1 & _).
    rewrite E1 in He. by injection He as <- <- <-. }
  assert (sh_nnr s = N.of_nat (length (q_ghosts p))) as Hnnr.
  { rewrite <-(M_ghosts _ _ _ HM). destruct HI as (rs0 & fl0 & HI0). apply HI0. }
  destruct (cfg_fields _ _ Hc) as (_ & _ & Hcap).
  unfold drop_cold. destruct (call_before l (r_key x) (r_val x)) as [l1 v1] eqn:Hb.
  destruct Hinv as (-> & Hif). split; [done|].
  destruct (ev_cfg _ _ _ _ Hev) as (Hcfg & _ & _).
  unfold weightless. simpl.
  destruct (N.eqb_spec (weight P (r_key x) v1) 0) as [Hz|Hz]; [destruct Hif as (-> & Hits & HR')|destruct Hif as [-> Hif]].
  - eexists; split; [done|]. eexists. split; [done|congruence| | |].
    + eapply LD_ph; [done|intros; by eapply ev_ph|done].
    + assert (RH s' (<[None := T None ++ [t]]> (<[Some RCold := TB ++ TA]> T))) as HR2.
      { destruct HR' as [[fl HR1] Hh1]. split; [exists fl; eapply RI_ext; [exact HR1|]|]; intros r; by rewrite (fn_lookup_insert_ne _ None) by done. }
      exact HR2.
    + rewrite Hits. eapply M_ext; [eapply (M_move _ _ _ t _ (Resident (set_rval x v1)) (Some RCold) None); [done|done|done|done|by rewrite map_length|by right| |done]|done|].
      * simpl. unfold rweight. simpl. by rewrite Hz.
      * fins.
  - rewrite Hcap, Hnnr in Hif. rewrite app_length, Nat2N.inj_add. simpl. change (N.of_nat 1) with 1%N.
    assert (M (<[t := Some (Ghost (hash P (r_key x)))]> (its_of s)) (<[Some RGhost := T (Some RGhost) ++ [t]]> (<[Some RCold := TB ++ TA]> T))
       (ent (put_ghosts (put_cold p (B ++ A)) (q_ghosts p ++ [hash P (r_key x)])))) as HM2.
    { eapply M_ext; [eapply (M_move _ _ _ t _ (Ghost (hash P (r_key x))) (Some RCold) (Some RGhost)); [done|done|done|done|by rewrite map_length|by right|done|done]|done|].
      fins. }
    destruct (lm_ghosts lim <? N.of_nat (length (q_ghosts p)) + 1)%N.
    + destruct Hif as (g & G & EG & HR' & Hits). eexists; split; [done|]. eexists. split; [done|congruence| |exact HR'|].
      * eapply LD_ph; [done|intros; by eapply ev_ph|done].
      * destruct (q_ghosts p ++ [hash P (r_key x)]) as [|h0 G0] eqn:EG0; [by destruct (q_ghosts p)|]. simpl.
        rewrite Hits. eapply M_ext; [eapply (M_leave _ _ _ _ g (Ghost h0) (Some RGhost) [] G [] (map Ghost G0) G (map Ghost G0) None); [exact HM2| | | | | |]| |].
        -- apply chg_insert. rewrite insert_length.
           assert (g ∈ <[Some RGhost:=T (Some RGhost) ++ [t]]> (<[Some RCold:=TB ++ TA]> T) (Some RGhost)) as Hg by (rewrite fn_lookup_insert, EG; left).
           destruct (M_in _ _ _ _ _ HM2 Hg) as (e0 & He0 & _). apply lookup_lt_Some in He0. by rewrite insert_length in He0.
        -- by rewrite fn_lookup_insert.
        -- done.
        -- done.
        -- done.
        -- by left.
        -- intros pl'. destruct (decide (pl' = Some RGhost)) as [->|Hne]; [by rewrite !fn_lookup_insert|]. by rewrite !(fn_lookup_insert_ne _ (Some RGhost)) by done.
        -- fins.
    + destruct Hif as [HR' Hits]. eexists; split; [done|]. eexists. split; [done|congruence| |exact HR'|by rewrite Hits].
      eapply LD_ph; [done|intros; by eapply ev_ph|done].
Qed.

(* the state in which cold_promote trims the hot list *)
Definition promoted s t x : res shard :=
  let x' := set_rstate (set_key_ref x (r_ref x - 1)) Hot in
  let s := set_entry s t (Resident x') in
  let w := rweight x' in
  let! s := add_weight s Hot w in
  let! s := sub_weight s Cold w in
  let s := inc_num s Hot in
  let! s := dec_num s Cold in
  let! (es, h) := slab_unlink (sh_ents s) t in
  let s := set_head (set_ents s es) Cold h in
  let! (es, h) := slab_link (sh_ents s) t (a_head (sh_hot s)) in
  Ok (set_head (set_ents s es) Hot (Some h)).
Lemma promote_eq s l t x : cold_promote s l t x =
  (let! s1 := promoted s t x in let! (s2, l2) := trim_hot (length (ents (sh_ents s1)) + 1) s1 l in Ok (s2, l2, true)).
Proof.
  unfold cold_promote, promoted. destruct (add_weight _ _ _) as [s1|]; [|done]. cbn [rbind].
  destruct (sub_weight _ _ _) as [s2|]; [|done]. cbn [rbind]. destruct (dec_num _ _) as [s3|]; [|done]. cbn [rbind].
  destruct (slab_unlink _ _) as [[es h]|]; [|done]. cbn [rbind]. destruct (slab_link _ _ _) as [[es2 h2]|]; done.
Qed.
Lemma promoted_inv s l t x s2 : Inv s → its_of s !! t = Some (Some (Resident x)) → r_state x = Cold → rweight x ≠ 0%N →
  promoted s t x = Ok s2 → Inv s2 ∧ ev_post s l s2 l.
Proof.
  intros (rs & fl & HI) Ht Hst Hw H.
  pose proof (inv_ring _ _ _ _ _ HI Ht Hw) as Hin. rewrite Hst in Hin. simpl in Hin. apply elem_of_list_split in Hin as (A & B & HAB).
  destruct x as [k v st x]; simpl in Hst; subst st. unfold rweight in *; simpl in *.
  destruct (i_acc _ _ _ HI) as [Haw Han Hag].
  pose proof (Haw Hot) as HawH. pose proof (Han Hot) as HanH. simpl in HawH, HanH.
  pose proof (Haw Cold) as HawC. pose proof (Han Cold) as HanC. simpl in HawC, HanC.
  pose proof (esum_ge (wof Cold) _ _ _ Ht) as Hge1. pose proof (esum_ge (nof Cold) _ _ _ Ht) as Hge2.
  simpl in Hge1, Hge2. unfold rweight in Hge1; simpl in Hge1.
  assert (t < length (its_of s)) as Hlt by (by eapply lookup_lt_Some).
  destruct (RI_set _ _ _ t (Resident (Res k v Hot (x - 1))) _ (i_ri _ _ _ HI) Ht) as [Hit HRI].
  destruct (RI_unlink _ _ _ _ _ _ _ HRI HAB) as (sl' & Hun & Hit' & HRI').
  pose proof (i_heads _ _ _ HI RHot) as HhH. simpl in HhH.
  destruct (RI_link sl' _ _ t RHot HRI') as (sl2 & Hlk & Hit3 & HRI3).
  { eexists. rewrite Hit', Hit. by apply list_lookup_insert. }
  { by eapply leave_notin. }
  rewrite rupd_ne in Hlk by done. rewrite <-HhH in Hlk.
  unfold promoted, add_weight, sub_weight, dec_num, set_rstate, set_key_ref, rweight in H. cbn [r_key r_val r_state r_ref sh_acct sh_hot sh_cold set_entry set_ents] in H.
  apply bind_ok in H as (s1 & H1 & H). apply bind_ok in H1 as (hw & Hhw & H1). injection H1 as <-.
  apply bind_ok in H as (s3 & H1 & H). apply bind_ok in H1 as (cw & Hcw & H1). injection H1 as <-.
  apply bind_ok in H as (s4 & H1 & H). apply bind_ok in H1 as (cn & Hcn & H1). injection H1 as <-.
  simpl in H, Hhw, Hcw, Hcn. rewrite Hun in H. simpl in H. rewrite Hlk in H. simpl in H. injection H as <-.
  unfold wadd in Hhw. destruct (_ <? _)%N in Hhw; [|done]. injection Hhw as <-.
  rewrite wsub_ok in Hcw by lia. injection Hcw as <-. rewrite wsub_ok in Hcn by lia. injection Hcn as <-.
  match goal with |- Inv ?x ∧ _ => set (s2 := x) end.
  assert (its_of s2 = <[t := Some (Resident (Res k v Hot (x - 1)))]> (its_of s)) as Hits.
  { unfold its_of, s2; simpl. by rewrite Hit3, Hit', Hit. }
  split.
  - exists (rupd (rupd rs RCold (B ++ A)) RHot (rs RHot ++ [t])), fl. split.
    + rewrite rupd_ne in HRI3 by done. apply HRI3.
    + intros r0. pose proof (i_heads _ _ _ HI r0) as Hh0.
      destruct r0; simpl in *; [rewrite rupd_eq|by rewrite rupd_ne, rupd_eq by done|by rewrite !rupd_ne by done].
      rewrite Hh0. by destruct (rs RHot).
    + rewrite Hits. rewrite <-(list_insert_insert (its_of s) t _ None).
      replace (rs RHot) with (rupd rs RCold (B ++ A) RHot) by (by rewrite rupd_ne).
      apply memb_join; [|by rewrite insert_length| |].
      * eapply memb_leave; [apply HI|apply HI|done|done|done].
      * eapply leave_notin; [apply HI|done].
      * by apply (cls_nz (Res k v Hot (x - 1))).
    + rewrite Hits. split.
      * intros []; simpl; rewrite (esum_upd _ _ _ _ _ Ht); simpl; unfold rweight; simpl; lia.
      * intros []; simpl; rewrite (esum_upd _ _ _ _ _ Ht); simpl; unfold rweight; simpl; lia.
      * simpl; rewrite (esum_upd _ _ _ _ _ Ht); simpl; lia.
    + apply HI.
    + rewrite Hits. simpl. eapply (MI_set_res LW); [apply HI|done|done|done|done|by right].
  - eapply (ev_step s l s2 l t _ _ []); [done|done|done|done|done|done| |].
    + by rewrite app_nil_r.
    + simpl. apply evicts_refl.
Qed.
Lemma rel_promoted lim s p T TA t TB A x B l s2 : RelT lim s p T →
  T (Some RCold) = TA ++ t :: TB → q_cold p = A ++ x :: B → length TA = length A →
  promoted s t x = Ok s2 → Rel lim s2 (to_back (put_cold p (B ++ A)) (Res (r_key x) (r_val x) Hot (r_ref x - 1))).
Proof.
  intros [HI Hc HL [[fl HR] Hh] HM] HT HE Hlen H. set (y := Res (r_key x) (r_val x) Hot (r_ref x - 1)).
  assert (ent p (Some RCold) = map Resident A ++ Resident x :: map Resident B) as HE' by (simpl; by rewrite HE, map_app).
  pose proof (M_img _ _ _ HM (Some RCold)) as HF. rewrite HT, HE' in HF. apply Forall2_app_inv in HF as [HA HB]; [|by rewrite map_length].
  apply Forall2_cons in HB as [[Ht Hct] _]. assert (t < length (its_of s)) as Hlt by by eapply lookup_lt_Some.
  simpl in Hct. destruct (N.eqb_spec (rweight x) 0) as [|Hw]; [done|]. destruct (r_state x) eqn:Hst; [done|].
  destruct (promoted_inv s l t x s2 HI Ht Hst Hw H) as [HI2 Hev].
  destruct (ev_cfg _ _ _ _ Hev) as (Hcfg & _ & _).
  unfold promoted in H. change (set_rstate (set_key_ref x (r_ref x - 1)) Hot) with y in H.
  destruct (RI_set _ _ _ t (Resident y) _ HR Ht) as [Hit HRI].
  destruct (RI_unlink _ _ _ _ _ _ _ HRI HT) as (sl' & Hun & Hit' & HRI').
  destruct (RI_link sl' _ _ t RHot HRI') as (sl2 & Hlk & Hit3 & HRI3).
  { eexists. rewrite Hit', Hit. by apply list_lookup_insert. }
  { intros r. by eapply leave_notin. }
  rewrite rupd_ne in Hlk, HRI3 by done.
  apply bind_ok in H as (s3 & H1 & H). apply add_weight_inv in H1 as [E1 G1].
  apply bind_ok in H as (s4 & H2 & H). apply sub_weight_inv in H2 as [E2 G2].
  apply bind_ok in H as (s5 & H3 & H). apply dec_num_inv in H3 as [E3 G3].
  apply bind_ok in H as ([es h] & H4 & H). rewrite E3 in H4. simpl in H4. rewrite E2, E1 in H4. simpl in H4.
  rewrite Hun in H4. injection H4 as <- <-.
  apply bind_ok in H as ([es h] & H5 & H). simpl in H5.
  assert (a_head (sh_hot s5) = head (T (Some RHot))) as Hhd.
  { pose proof (G3 RHot) as X3. pose proof (G2 RHot) as X2. pose proof (G1 RHot) as X1. pose proof (Hh RHot) as X. simpl in *. congruence. }
  rewrite Hhd, Hlk in H5. injection H5 as <- <-. injection H as <-.
  exists (<[Some RHot := T (Some RHot) ++ [t]]> (<[Some RCold := TB ++ TA]> T)). split; [done|congruence| | |].
  - eapply LD_ph; [done|intros; by eapply ev_ph|]. unfold to_back. by destruct (weightless y).
  - split.
    + exists fl. simpl. eapply RI_ext; [exact HRI3|]. rins.
    + intros r. specialize (Hh r). specialize (G1 r). specialize (G2 r). specialize (G3 r).
      destruct r; simpl in *; rewrite ?fn_lookup_insert, ?fn_lookup_insert_ne by done.
      * by destruct (T (Some RHot)).
      * by rewrite fn_lookup_insert.
      * congruence.
  - match goal with |- M (its_of ?z) _ _ => set (z0 := z) end.
    assert (its_of z0 = <[t := Some (Resident y)]> (its_of s)) as ->.
    { unfold its_of, z0; simpl. by rewrite Hit3, Hit', Hit. }
    assert (weightless y = false) as Hwl by (unfold weightless; apply N.eqb_neq; exact Hw).
    eapply M_ext; [eapply (M_move _ _ _ t _ (Resident y) (Some RCold) (Some RHot)); [done|done|done|done|by rewrite map_length|by right| |done]|done|].
    + simpl. unfold rweight. simpl. destruct (N.eqb_spec (weight P (r_key x) (r_val x)) 0); [done|]. done.
    + unfold to_back. rewrite Hwl. fins.
Qed.

Lemma cold_sim lim fuel : ∀ s p l T TA t TB A x B s' l' b, RelT lim s p T →
  T (Some RCold) = TA ++ t :: TB → q_cold p = A ++ x :: B → length TA = length A → Forall skipped A →
  advance_cold_loop fuel s l t = Ok (s', l', b) → ∃ q, cold_hand lim p l q l' b ∧ Rel lim s' q.
Proof.
  induction fuel as [|fuel IH]; intros s p l T TA t TB A x B s' l' b HR HT HE Hlen HS H; [done|]. cbn [advance_cold_loop] in H.
  destruct (R_rings _ _ _ _ HR) as [[fl HRI] Hh].
  destruct (RI_get _ _ _ RCold TA t TB HRI HT) as (e & nx & Hg & Hit & Hnx). rewrite Hg in H. cbn [unwrap rbind] in H.
  assert (ent p (Some RCold) = map Resident A ++ Resident x :: map Resident B) as HE' by (simpl; by rewrite HE, map_app).
  pose proof (M_img _ _ _ (R_lists _ _ _ _ HR) (Some RCold)) as HF. rewrite HT, HE' in HF.
  pose proof (Forall2_length _ _ _ HF) as HlB. rewrite !app_length in HlB. simpl in HlB. rewrite !map_length in HlB.
  apply Forall2_app_inv in HF as [HA HB]; [|by rewrite map_length].
  apply Forall2_cons in HB as [[Ht Hct] _].
  assert (e = Resident x) as -> by (unfold its_of in Ht; congruence).
  apply bind_ok in H as ([] & _ & H).
  destruct (N.eqb_spec (r_ref x) 0) as [Hz|Hz]; cbn [negb] in H.
  2:{ rewrite promote_eq in H. apply bind_ok in H as (s1 & H1 & H). apply bind_ok in H as ([s2 l2] & H2 & H). injection H as <- <- <-.
      destruct (trim_sim _ _ _ _ _ _ _ (rel_promoted _ _ _ _ _ _ _ _ _ _ l _ HR HT HE Hlen H1) H2) as (q & Hq & HRq).
      exists q. split; [|done]. by eapply cold_up. }
  destruct (rpinned x) eqn:Hpin.
  2:{ destruct (rel_cold_out _ _ _ _ _ _ _ _ _ _ _ _ _ _ HR HT HE Hlen Hpin H) as (-> & q & Hd & Hq). exists q. split; [|done]. by eapply cold_out. }
  assert (Forall skipped (A ++ [x])) as HS' by (apply Forall_app; split; [done|]; by constructor).
  assert (NoDup (TA ++ t :: TB)) as Hnd by (rewrite <-HT; apply (M_nd _ _ _ (R_lists _ _ _ _ HR))).
  pose proof (Hh RCold) as Hhc. simpl in Hhc. rewrite Hhc, HT in H.
  pose proof (nodup_head _ _ _ _ Hnd Hnx) as Hend. destruct TB as [|t' TB].
  - rewrite bool_decide_true in H by (by apply Hend). assert (B = []) as -> by (destruct B; [done|simpl in HlB; lia]).
    destruct (hot_hand_sim lim s p l s' l' b (ex_intro _ T HR) H) as (q & Hq & HRq). exists q. split; [|done].
    apply cold_none; [by rewrite HE|done].
  - rewrite bool_decide_false in H by (by rewrite Hend). destruct B as [|y B]; [simpl in HlB; lia|]. simpl in Hnx. injection Hnx as ->.
    eapply (IH s p l T (TA ++ [t]) t' TB (A ++ [x]) y B); [done| | | |done|done].
    + by rewrite HT, <-(assoc_L (++)).
    + by rewrite HE, <-(assoc_L (++)).
    + rewrite !app_length. simpl. lia.
Qed.
Lemma cold_hand_sim lim s p l s' l' b : Rel lim s p → advance_cold s l = Ok (s', l', b) →
  ∃ q, cold_hand lim p l q l' b ∧ Rel lim s' q.
Proof.
  intros [T HR] H. unfold advance_cold in H. pose proof (proj2 (R_rings _ _ _ _ HR) RCold) as Hh. simpl in Hh. rewrite Hh in H.
  pose proof (Forall2_length _ _ _ (M_img _ _ _ (R_lists _ _ _ _ HR) (Some RCold))) as Hlen. simpl in Hlen. rewrite map_length in Hlen.
  destruct (T (Some RCold)) as [|t TB] eqn:HT; cbn [head] in H.
  - destruct (hot_hand_sim lim s p l s' l' b (ex_intro _ T HR) H) as (q & Hq & HRq). exists q. split; [|done].
    apply cold_none; [|done]. by destruct (q_cold p).
  - destruct (q_cold p) as [|x B] eqn:Hq; [done|].
    eapply (cold_sim lim _ s p l T [] t TB [] x B); [done|done|done|done|by constructor|done].
Qed.
Lemma room_loop_sim lim extra fuel : ∀ s p l s' l', Rel lim s p → evict_loop fuel s l extra = Ok (s', l') →
  ∃ q, make_room lim extra p l q l' ∧ Rel lim s' q.
Proof.
  induction fuel as [|fuel IH]; intros s p l s' l' HR H; [done|]. cbn [evict_loop] in H.
  pose proof (Rel_weight _ _ _ Hot HR) as Hw. pose proof (Rel_weight _ _ _ Cold HR) as Hw2. simpl in Hw, Hw2.
  assert (sh_capacity s = lm_capacity lim) as Hb by (destruct HR as [T HR]; by apply (cfg_fields lim), (R_cfg _ _ _ _ HR)).
  apply bind_ok in H as (a & Ha & H). unfold wadd in Ha. destruct (_ <? _)%N in Ha; [|done]. injection Ha as <-.
  apply bind_ok in H as (a & Ha & H). unfold wadd in Ha. destruct (_ <? _)%N in Ha; [|done]. injection Ha as <-.
  rewrite Hw, Hw2, Hb in H. destruct (N.ltb_spec (lm_capacity lim) (tweight (q_hot p) + tweight (q_cold p) + extra)) as [Hlt|Hge].
  - apply bind_ok in H as ([[s1 l1] b] & H1 & H). destruct (cold_hand_sim _ _ _ _ _ _ _ HR H1) as (q1 & Hq1 & HR1). destruct b.
    + destruct (IH _ _ _ _ _ HR1 H) as (q & Hq & HRq). exists q. split; [|done]. by eapply room_more.
    + injection H as <- <-. exists q1. split; [|done]. by eapply room_stuck.
  - injection H as <- <-. exists p. split; [|done]. by apply room_done.
Qed.
Lemma room_sim lim s p l extra s' l' : Rel lim s p → evict_until s l extra = Ok (s', l') →
  ∃ q, make_room lim extra p l q l' ∧ Rel lim s' q.
Proof. apply room_loop_sim. Qed.
End policy.
