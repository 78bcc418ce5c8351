(* Proofs about Clone. *)
From stdpp Require Import prelude list.
From Verif Require Export Clone AnewProofs Reach SeqProofs3 SeqProofs4 SeqProofs5 SeqProofs6.

Section clone.
Context {P : Params} (LW : Lawful P).
Implicit Types (s : shard P) (e : entry P) (sl : slab (entry P)) (rs : rid → list nat) (fl : list nat).
Section fixed.
Context (ck : K P → K P) (cv : V P → V P) (HF : faithful ck cv).
Notation ce := (clone_entry ck cv).
Notation cs := (clone_slab ck cv).

Lemma clone_nx sl t : nx (cs sl) t = nx sl t.
Proof. unfold nx, clone_slab. simpl. rewrite list_lookup_fmap. by destruct (ents sl !! t). Qed.
Lemma clone_items sl : items (cs sl) = (λ o : option (entry P), ce <$> o) <$> items sl.
Proof. unfold items, clone_slab. simpl. rewrite <-!list_fmap_compose. by apply list_fmap_ext. Qed.
Lemma clone_hash e : hash_of_entry (ce e) = hash_of_entry e.
Proof. destruct e; simpl; try done; apply (hash_keqb _ LW), HF. Qed.
Lemma clone_cls e : cls (ce e) = cls e.
Proof. destruct e as [r| |]; simpl; try done. unfold rweight. simpl. by rewrite (proj1 (proj2 HF)). Qed.
Lemma clone_weight r : rweight (P:=P) (Res (ck (r_key r)) (cv (r_val r)) (r_state r) (r_ref r)) = rweight r.
Proof. unfold rweight. simpl. apply HF. Qed.
Lemma clone_esum f sl : (∀ e, f (ce e) = f e) → esum f (items (cs sl)) = esum f (items sl).
Proof.
  intros Hf. rewrite clone_items. generalize (items sl) as l. intros l. unfold esum. induction l as [|[e|] l IH]; [done|..].
  - simpl. by rewrite Hf, <-IH.
  - simpl. by rewrite <-IH.
Qed.
Lemma clone_iter T s : sh_iter (sh_clone ck cv T s) = (λ p, (ck p.1, cv p.2)) <$> sh_iter s.
Proof.
  unfold sh_iter, slab_iter, sh_clone, clone_slab. simpl. induction (ents (sh_ents s)) as [|x l IH]; [done|]. simpl.
  destruct (item x) as [e|]; simpl; [|exact IH]. destruct e; simpl; [f_equal; exact IH|exact IH..].
Qed.
Lemma clone_pv sl t : pv (cs sl) t = pv sl t.
Proof. unfold pv, clone_slab. simpl. rewrite list_lookup_fmap. by destruct (ents sl !! t). Qed.
Lemma clone_lnk sl a b : lnk (cs sl) a b ↔ lnk sl a b.
Proof. unfold lnk. by rewrite clone_nx, clone_pv. Qed.
Lemma clone_at sl t : items (cs sl) !! t = (λ o : option (entry P), ce <$> o) <$> items sl !! t.
Proof. rewrite clone_items. apply list_lookup_fmap. Qed.
Lemma clone_at_Some sl t e' : items (cs sl) !! t = Some (Some e') ↔ ∃ e, items sl !! t = Some (Some e) ∧ e' = ce e.
Proof.
  rewrite clone_at. split.
  - destruct (items sl !! t) as [[e|]|]; simpl; intros [=]. eauto.
  - intros (e & -> & ->). done.
Qed.
Lemma clone_live sl t : live (cs sl) t ↔ live sl t.
Proof. unfold live. split; intros [x Hx]; [apply clone_at_Some in Hx as (e & ? & _)|]; [eauto|]. exists (ce x). apply clone_at_Some. eauto. Qed.
Lemma clone_seg sl l : seg (cs sl) l ↔ seg sl l.
Proof. induction l as [|a l IH]; simpl; [done|]. rewrite IH. destruct l; [done|]. by rewrite clone_lnk. Qed.
Lemma clone_ring sl l : ring (cs sl) l ↔ ring sl l.
Proof. unfold ring, closed. rewrite clone_seg. by setoid_rewrite clone_lnk. Qed.
Lemma clone_fchain sl n fl : fchain (cs sl) n fl ↔ fchain sl n fl.
Proof.
  revert n. induction fl as [|f fl IH]; intros n; simpl; [by rewrite fmap_length|]. rewrite clone_nx. by setoid_rewrite IH.
Qed.
Lemma clone_slab_ok sl fl : slab_ok sl fl → slab_ok (cs sl) fl.
Proof.
  intros (H1 & H2 & H3). split; [by apply clone_fchain|]. split; [done|]. intros t. rewrite <-H3, clone_at.
  destruct (items sl !! t) as [[|]|]; simpl; split; congruence.
Qed.
Lemma clone_RI sl rs fl : RI sl rs fl → RI (cs sl) rs fl.
Proof.
  intros [A B C D E]. split.
  - intros r. by apply clone_ring.
  - done.
  - intros r t Ht. by eapply clone_live, C.
  - intros t Ht Hr. apply clone_lnk, D; [by apply clone_live|done].
  - by apply clone_slab_ok.
Qed.
Lemma clone_key e : ekey (ce e) = ck <$> ekey e.
Proof. by destruct e. Qed.
Lemma clone_eqb k k' : keqb P (ck k) (ck k') = true → keqb P k k' = true.
Proof.
  intros H. apply (keqb_trans _ LW _ (ck k)); [apply (keqb_sym _ LW), HF|]. apply (keqb_trans _ LW _ (ck k')); [done|apply HF].
Qed.
Lemma clone_inv T s : Inv s → tpairs T ≡ₚ tpairs (sh_map s) → Inv (sh_clone ck cv T s).
Proof.
  intros (rs & fl & [A B C D E F]) HT. exists rs, fl. split.
  - by apply clone_RI.
  - intros r. rewrite <-B. by destruct r.
  - intros r t. rewrite (C r t). unfold its_of. cbn [sh_clone sh_ents]. split.
    + intros (e & He & Hc). exists (ce e). split; [apply clone_at_Some; eauto|by rewrite clone_cls].
    + intros (e' & He & Hc). apply clone_at_Some in He as (e & He & ->). rewrite clone_cls in Hc. eauto.
  - destruct D as [D1 D2 D3]. unfold its_of in *. split; cbn [sh_clone sh_ents sh_nnr].
    + intros st. rewrite clone_esum; [by rewrite <-D1; destruct st|]. intros []; simpl; try done. by rewrite clone_weight.
    + intros st. rewrite clone_esum; [by rewrite <-D2; destruct st|]. by intros [].
    + rewrite clone_esum; [done|]. by intros [].
  - done.
  - destruct F as [F1 F2 F3 F4 F5 F6]. unfold its_of in *. cbn [sh_clone sh_ents sh_map sh_nph].
    assert (∀ z, z ∈ tpairs T ↔ z ∈ tpairs (sh_map s)) as HTe by (intros z; by rewrite HT).
    assert (∀ t, t ∈ (tpairs T).*2 ↔ t ∈ (tpairs (sh_map s)).*2) as HT2 by (intros t; by rewrite HT).
    split.
    + by rewrite HT.
    + intros h t Hin. apply HTe, F2 in Hin as (e & He & Hh). exists (ce e). split; [apply clone_at_Some; eauto|by rewrite clone_hash].
    + intros t e' He Hp. apply clone_at_Some in He as (e & He & ->). rewrite clone_hash. apply HTe, F3; [done|]. by destruct e.
    + intros t1 t2 e1' e2' k1' k2' H1 H2 He1 He2 Hk1 Hk2 Hk. apply clone_at_Some in He1 as (e1 & He1 & ->). apply clone_at_Some in He2 as (e2 & He2 & ->).
      rewrite clone_key in Hk1, Hk2. apply fmap_Some in Hk1 as (k1 & Hk1 & ->). apply fmap_Some in Hk2 as (k2 & Hk2 & ->). apply clone_eqb in Hk.
      by eapply (F4 t1 t2 e1 e2 k1 k2); [apply HT2|apply HT2|..].
    + intros t p He. apply clone_at_Some in He as (e & He & Hp). destruct e as [|q|]; try done. injection Hp as ->. simpl.
      destruct (F5 _ _ He) as (G1 & G2 & G3). split_and!; try done. rewrite G2. symmetry. apply (hash_keqb _ LW), HF.
    + intros t t' p p' He He' Hid. apply clone_at_Some in He as (e & He & Hp). apply clone_at_Some in He' as (e' & He' & Hp').
      destruct e as [|q|], e' as [|q'|]; try done. injection Hp as ->. injection Hp' as ->. simpl in Hid. by eapply F6.
Qed.
End fixed.

Lemma clone_used ck cv T s : used (sh_clone ck cv T s) = used s.
Proof. unfold used, its_of. cbn [sh_clone sh_ents]. rewrite clone_items. generalize (items (sh_ents s)) as l. intros l. unfold esum.
  induction l as [|[e|] l IH]; [done|..]; simpl; by rewrite <-IH. Qed.
Lemma clone_uwsum ck cv T s : faithful ck cv → uwsum (sh_iter (sh_clone ck cv T s)) = uwsum (sh_iter s).
Proof.
  intros (_ & Hw & Hp). rewrite clone_iter. unfold uwsum. generalize (sh_iter s) as c. intros c. induction c as [|[k v] c IH]; [done|].
  simpl. unfold filter in *. simpl. rewrite Hp. case_decide; [|exact IH].
  simpl. rewrite Hw. f_equal. exact IH.
Qed.
Lemma descends_inv budget ghosts cap h s : descends budget ghosts cap h s →
  Inv s ∧ cfg s = (budget, cap, ghosts) ∧ (used s ≤ N.of_nat (length h))%N.
Proof.
  induction 1 as [|h s m s' o H (HI & Hc & Hu) He|h s s' ck cv H (HI & Hc & Hu) HF (T & HT & ->)].
  - destruct (history_inv LW budget ghosts cap [] [] (sh_new budget ghosts cap)) as [A B]; [done|]. split_and!; try done.
  - pose proof (exec_step LW _ _ _ _ HI He) as Hs. split; [exact (st_inv _ _ _ _ Hs)|]. split; [by rewrite (st_cfg _ _ _ _ Hs)|].
    rewrite app_length. simpl. pose proof (st_used _ _ _ _ Hs). lia.
  - split; [by apply clone_inv|]. split; [done|]. by rewrite clone_used.
Qed.
Lemma descends_does budget ghosts cap h s m s' o : descends budget ghosts cap h s → exec s m = Ok (s', o) →
  does cap budget (sh_iter s) m o (sh_iter s').
Proof.
  intros H He. destruct (descends_inv _ _ _ _ _ H) as (HI & Hc & _). pose proof (exec_step LW _ _ _ _ HI He) as Hs.
  pose proof (st_does _ _ _ _ Hs) as Hd. unfold cfg in Hc. injection Hc as H1 H2 H3. by rewrite H1, H2 in Hd.
Qed.
Lemma descends_uwsum budget ghosts cap h s : (budget ≤ cap)%N → descends budget ghosts cap h s → Forall no_growth_unpin h →
  (uwsum (sh_iter s) ≤ cap)%N.
Proof.
  intros Hb. induction 1 as [|h s m s' o H IH He|h s s' ck cv H IH HF (T & HT & ->)]; intros Hg.
  - unfold uwsum, sh_iter; simpl. lia.
  - apply Forall_app in Hg as [Hg1 Hg2]. apply Forall_cons in Hg2 as [Hg2 _].
    eapply does_uwsum; [exact Hb|exact Hg2|by eapply descends_does|by apply IH].
  - rewrite clone_uwsum by done. by apply IH.
Qed.
Lemma inv_ghosts s : Inv s → (N.of_nat (length (remembered s)) ≤ sh_cap_nr s)%N.
Proof.
  intros (rs & fl & HI). pose proof (i_ghost _ _ _ HI) as Hg. rewrite (acc_g _ _ (i_acc _ _ _ HI)) in Hg.
  etrans; [|exact Hg]. clear. apply N.eq_le_incl. unfold remembered. rewrite slab_iter_items. fold (its_of s).
  induction (its_of s) as [|o l IH]; [done|]. unfold esum in *.
  destruct o as [[r|p|h]|]; csimpl; cbn [List.filter length]; rewrite <-?IH; unfold ghn; lia.
Qed.
(* the exact clone is the cache itself, but for how often its table was changed *)
Lemma clone_id T s : tpairs T = tpairs (sh_map s) →
  sh_clone (λ k, k) (λ v, v) T s = sh_shard (tepoch T) 0%N 0%N 0%N (set_map s (Table (tpairs (sh_map s)) 0)).
Proof.
  intros HT. unfold sh_clone, sh_shard, clone_slab. destruct s as [m [es nf] [] [] ]. simpl in *. f_equal; try lia.
  - destruct T as [p n]. simpl in HT. by subst p.
  - unfold shf, sh_slab. simpl. f_equal. apply list_fmap_ext. intros i x _. destruct x as [[[[]|[k st [] ]|]|] n p]; try done.
Qed.
Lemma anew_epoch (s : shard P) : s = sh_shard (tepoch (sh_map s)) 0%N 0%N 0%N (set_map s (Table (tpairs (sh_map s)) 0)).
Proof.
  unfold sh_shard. destruct s as [[tp te] [es nf] ]. simpl. f_equal; try lia. unfold shf, sh_slab. simpl. f_equal.
  rewrite <-(map_id es) at 1. apply map_ext. intros x. destruct x as [[[[]|[k st [] ]|]|] n p]; try done.
Qed.
End clone.
