(* The sequential cache follows the machine of Policy.v: one call. *)
From stdpp Require Import functions.
From Verif Require Export PolicyProofs.

Section ops.
Context {P : Params} (LW : Lawful P).
Notation K := (K P). Notation V := (V P).
Notation entry := (entry P). Notation shard := (shard P). Notation item := (resident P).
Notation place := (option rid).
Implicit Types (s : shard) (l : lcs P) (e : entry) (x y : item) (its : list (option entry)) (k : K) (v : V)
  (rs : rid → list nat) (T : place → list nat) (E : place → list entry) (pl : place) (p q : policy P) (lim : limits).

(* ---- where a token is ---- *)
Lemma map_res_split (L : list item) EA x EB : map Resident L = EA ++ Resident x :: EB →
  ∃ A B, L = A ++ x :: B ∧ EA = map Resident A ∧ EB = map Resident B.
Proof.
  revert EA. induction L as [|y L IH]; intros EA H; [by destruct EA|]. destruct EA as [|e EA]; simpl in H.
  - injection H as -> <-. by exists [], L.
  - injection H as <- H. destruct (IH _ H) as (A & B & -> & -> & ->). by exists (y :: A), B.
Qed.
Lemma map_ghost_split (L : list N) EA g EB : map (@Ghost P) L = EA ++ Ghost g :: EB →
  ∃ A B, L = A ++ g :: B ∧ EA = map Ghost A ∧ EB = map Ghost B.
Proof.
  revert EA. induction L as [|y L IH]; intros EA H; [by destruct EA|]. destruct EA as [|e EA]; simpl in H.
  - injection H as -> <-. by exists [], L.
  - injection H as <- H. destruct (IH _ H) as (A & B & -> & -> & ->). by exists (y :: A), B.
Qed.
Lemma tok_item lim s p T t x : RelT lim s p T → its_of s !! t = Some (Some (Resident x)) →
  (weightless x = false ∧ ∃ TA TB A B, T (Some (st_rid (r_state x))) = TA ++ t :: TB ∧
     q_list p (r_state x) = A ++ x :: B ∧ length TA = length A) ∨
  (weightless x = true ∧ ∃ TA TB A B, T None = TA ++ t :: TB ∧ q_idle p = A ++ x :: B ∧ length TA = length A).
Proof.
  intros HR Ht. pose proof (R_lists _ _ _ _ HR) as HM. unfold weightless. change (weight P (r_key x) (r_val x)) with (rweight x).
  assert (pcls (Resident x) = Some (if (rweight x =? 0)%N then None else Some (st_rid (r_state x)))) as Hc by done.
  destruct (rweight x =? 0)%N eqn:Hw.
  - right. split; [done|]. destruct (M_split _ _ _ _ _ _ HM Ht Hc) as (TA & TB & EA & EB & HT & HE & Hlen).
    destruct (map_res_split _ _ _ _ HE) as (A & B & HL & -> & ->). exists TA, TB, A, B. by rewrite map_length in Hlen.
  - left. split; [done|]. destruct (M_split _ _ _ _ _ _ HM Ht Hc) as (TA & TB & EA & EB & HT & HE & Hlen).
    rewrite ent_list in HE. destruct (map_res_split _ _ _ _ HE) as (A & B & HL & -> & ->). exists TA, TB, A, B. by rewrite map_length in Hlen.
Qed.
Lemma tok_ghost lim s p T t g : RelT lim s p T → its_of s !! t = Some (Some (Ghost g)) →
  ∃ TA TB A B, T (Some RGhost) = TA ++ t :: TB ∧ q_ghosts p = A ++ g :: B ∧ length TA = length A.
Proof.
  intros HR Ht. destruct (M_split _ _ _ _ _ (Some RGhost) (R_lists _ _ _ _ HR) Ht eq_refl) as (TA & TB & EA & EB & HT & HE & Hlen).
  destruct (map_ghost_split _ _ _ _ HE) as (A & B & HL & -> & ->). exists TA, TB, A, B. by rewrite map_length in Hlen.
Qed.
Lemma item_tok lim s p x : Rel lim s p → x ∈ q_items p ↔ ∃ t, its_of s !! t = Some (Some (Resident x)).
Proof.
  intros [T HR]. pose proof (R_lists _ _ _ _ HR) as HM. split.
  - intros Hx. assert (∃ pl, Resident x ∈ ent p pl) as [pl Hpl].
    { unfold q_items in Hx. rewrite !elem_of_app in Hx.
      destruct Hx as [Hx|[Hx|Hx]]; [exists (Some RHot)|exists (Some RCold)|exists None]; simpl;
        change (map ?f ?l) with (f <$> l); apply elem_of_list_fmap; eauto. }
    apply elem_of_list_split in Hpl as (EA & EB & HE). destruct (M_split_E _ _ _ _ _ _ _ HM HE) as (TA & t & TB & _ & _ & Ht & _). eauto.
  - intros [t Ht]. unfold q_items. rewrite !elem_of_app.
    destruct (tok_item _ _ _ _ _ _ HR Ht) as [(_ & TA & TB & A & B & _ & HL & _)|(_ & TA & TB & A & B & _ & HL & _)].
    + destruct (r_state x); simpl in HL; rewrite HL, elem_of_app, elem_of_cons; tauto.
    + rewrite HL, !elem_of_app, !elem_of_cons; tauto.
Qed.
Lemma rel_item_of lim s p k x t : Rel lim s p → its_of s !! t = Some (Some (Resident x)) → keqb P k (r_key x) = true → item_of p k x.
Proof. intros HR Ht Hk. split; [|done]. apply (item_tok _ _ _ _ HR). eauto. Qed.
Lemma rel_no_item lim s p k : Rel lim s p → no_item p k ↔ noresident s k.
Proof.
  intros HR. split.
  - intros Hn t x Ht. apply Hn. apply (item_tok _ _ _ _ HR). eauto.
  - intros Hn x [t Ht]%(item_tok _ _ _ _ HR). by eapply Hn.
Qed.
Lemma absent_nores s k : Inv s → absent s k → noresident s k.
Proof. intros HI Ha t r Ht. eapply Ha; [by eapply res_mapped|done|done]. Qed.
Lemma LD_none s p k : LD s p → (∀ t h, ph_at s t = Some (h, true) → keqb P k (p_key h) = false) → q_loads p k = None.
Proof.
  intros HL Hn. destruct (q_loads p k) as [[k0 st]|] eqn:Hq; [|done].
  apply HL in Hq as (t & h & Ht & <- & _ & Hk). specialize (Hn _ _ Ht). congruence.
Qed.
Lemma found_item lim s p k t e k' : Rel lim s p → mapped s t → its_of s !! t = Some (Some e) → ekey e = Some k' → keqb P k k' = true →
  match e with
  | Resident x => item_of p k x
  | Placeholder h => loading p k (p_key h) (p_hot h)
  | Ghost _ => False
  end.
Proof.
  intros HR Hm Ht He Hk. destruct e as [x|h|g]; simpl in He; [| |done]; injection He as <-.
  - by eapply rel_item_of.
  - pose proof (Rel_inv _ _ _ HR) as HI. split.
    + apply (rel_no_item _ _ _ _ HR). intros t' r Ht'. destruct (keqb P k (r_key r)) eqn:Hk'; [|done]. exfalso.
      assert (t' = t) as ->; [|congruence]. destruct HI as (rs & fl & HI).
      eapply (m_uniq _ _ _ (i_map _ _ _ HI)); [|exact Hm|exact Ht'|exact Ht|done|done|].
      * eapply res_mapped; [|done]. by exists rs, fl.
      * simpl. rewrite <-(keqb_cong LW k) by done. done.
    + destruct HR as [T HR]. apply (R_loads _ _ _ _ HR). exists t, h. split_and!; [by apply ph_at_pl|done|done|done].
Qed.
Lemma found_ghost lim s p T k t : RelT lim s p T → its_of s !! t = Some (Some (Ghost (hash P k))) → absent s k →
  ∃ TA TB A B, T (Some RGhost) = TA ++ t :: TB ∧ q_ghosts p = A ++ hash P k :: B ∧ length TA = length A ∧
    ghost_of p k (put_ghosts p (A ++ B)).
Proof.
  intros HR Ht Ha. destruct (tok_ghost _ _ _ _ _ _ HR Ht) as (TA & TB & A & B & HT & HL & Hlen).
  exists TA, TB, A, B. split_and!; [done|done|done|]. split; [|split].
  - apply (rel_no_item lim s); [by exists T|]. apply absent_nores; [apply HR|done].
  - eapply LD_none; [apply HR|]. intros t' h Hp. by eapply absent_ph.
  - eauto.
Qed.
Lemma found_none lim s p k : Rel lim s p → absent s k → (∀ t, its_of s !! t ≠ Some (Some (Ghost (hash P k)))) → unknown p k.
Proof.
  intros [T HR] Ha Hg. split; [|split].
  - apply (rel_no_item lim s); [by exists T|]. apply absent_nores; [apply HR|done].
  - eapply LD_none; [apply HR|]. intros t' h Hp. by eapply absent_ph.
  - intros (A & B & HL)%elem_of_list_split.
    destruct (M_split_E _ _ _ (Ghost (hash P k)) (Some RGhost) (map Ghost A) (map Ghost B) (R_lists _ _ _ _ HR)) as (TA & t & TB & _ & _ & Ht & _).
    + simpl. by rewrite HL, map_app.
    + by apply (Hg t).
Qed.

(* ---- the items are the contents ---- *)
Definition pair_of x : K * V := (r_key x, r_val x).
Lemma kvs_list (L : list nat) (XL : list item) : ∀ its, NoDup L →
  Forall2 (λ t x, its !! t = Some (Some (Resident x))) L XL →
  (∀ t x, its !! t = Some (Some (Resident x)) → t ∈ L) → kvs its ≡ₚ map pair_of XL.
Proof.
  revert XL. induction L as [|t L IH]; intros XL its Hnd HF Hall.
  - inversion HF; subst; simpl. destruct (kvs its) as [|[k v] c] eqn:Hc; [done|].
    assert ((k, v) ∈ kvs its) as Hin by (rewrite Hc; left). apply kvs_elem in Hin as (t & r & Ht & _).
    by apply Hall, not_elem_of_nil in Ht.
  - apply Forall2_cons_inv_l in HF as (x & XL' & Ht & HF & ->). apply NoDup_cons in Hnd as [Hn Hnd]. simpl.
    rewrite (kvs_split _ _ _ Ht). simpl. constructor. apply IH; [done| |].
    + clear -HF Hn. induction HF as [|t' e' L EL Ht' HF IH]; [constructor|]. apply not_elem_of_cons in Hn as [Hne Hn].
      constructor; [|by apply IH]. by rewrite list_lookup_insert_ne.
    + intros t' x' Ht'. destruct (decide (t' = t)) as [->|Hne].
      * rewrite list_lookup_insert in Ht' by (by eapply lookup_lt_Some). done.
      * rewrite list_lookup_insert_ne in Ht' by done. specialize (Hall _ _ Ht'). apply elem_of_cons in Hall as [?|?]; done.
Qed.
Lemma rel_iter lim s p : Rel lim s p → sh_iter s ≡ₚ map (λ x, (r_key x, r_val x)) (q_items p).
Proof.
  intros [T HR]. rewrite sh_iter_kvs. pose proof (R_lists _ _ _ _ HR) as HM.
  assert (∀ pl L, ent p pl = map Resident L → Forall2 (λ t x, its_of s !! t = Some (Some (Resident x))) (T pl) L) as HF.
  { intros pl L HL. pose proof (M_img _ _ _ HM pl) as HF. rewrite HL in HF. clear -HF. revert HF. generalize (T pl) as TL.
    induction L as [|x L IH]; intros TL HF; simpl in HF; [by inversion HF|]. apply Forall2_cons_inv_r in HF as (t & TL' & [Ht _] & HF & ->).
    constructor; [done|]. by apply IH. }
  assert (∀ pl pl' t, t ∈ T pl → t ∈ T pl' → pl = pl') as Hdis.
  { intros pl pl' t H1 H2. destruct (M_in _ _ _ _ _ HM H1) as (e1 & E1 & C1). destruct (M_in _ _ _ _ _ HM H2) as (e2 & E2 & C2). congruence. }
  apply (kvs_list (T (Some RHot) ++ T (Some RCold) ++ T None)).
  - apply NoDup_app. split_and!; [apply HM| |apply NoDup_app; split_and!; [apply HM| |apply HM]].
    + intros t H1 H2. apply elem_of_app in H2 as [H2|H2]; by pose proof (Hdis _ _ _ H1 H2).
    + intros t H1 H2; by pose proof (Hdis _ _ _ H1 H2).
  - unfold q_items. apply Forall2_app; [|apply Forall2_app]; by apply HF.
  - intros t x Ht. rewrite !elem_of_app.
    destruct (tok_item _ _ _ _ _ _ HR Ht) as [(_ & TA & TB & A & B & HT & _)|(_ & TA & TB & A & B & HT & _)].
    + destruct (r_state x); simpl in HT; rewrite HT, elem_of_app, elem_of_cons; tauto.
    + rewrite HT, !elem_of_app, !elem_of_cons; tauto.
Qed.

Ltac rins := intros r; unfold rupd; repeat (case_decide; subst); repeat first [rewrite fn_lookup_insert|rewrite fn_lookup_insert_ne by congruence]; try done.
Ltac fins := intros pl'; destruct pl' as [[]|]; rewrite ?fn_lookup_insert, ?fn_lookup_insert_ne by done; simpl; rewrite ?map_app; try done.

(* ---- an item changes ---- *)
Lemma ent_put p st L pl : ent (put_list p st L) pl = <[Some (st_rid st) := map Resident L]> (ent p) pl.
Proof. revert pl. destruct st; fins. Qed.
Lemma ent_put_idle p L pl : ent (put_idle p L) pl = <[None := map Resident L]> (ent p) pl.
Proof. revert pl. fins. Qed.
Lemma ent_put_ghosts p G pl : ent (put_ghosts p G) pl = <[Some RGhost := map Ghost G]> (ent p) pl.
Proof. revert pl. fins. Qed.
Lemma put_list_idle p st L : q_idle (put_list p st L) = q_idle p. Proof. by destruct st. Qed.
Lemma put_list_loads p st L : q_loads (put_list p st L) = q_loads p. Proof. by destruct st. Qed.
Lemma put_list_ghosts p st L : q_ghosts (put_list p st L) = q_ghosts p. Proof. by destruct st. Qed.
Lemma to_back_loads p x : q_loads (to_back p x) = q_loads p.
Proof. unfold to_back. destruct (weightless x); [done|apply put_list_loads]. Qed.
Lemma ent_to_back p x pl : ent (to_back p x) pl =
  (let pl0 := if weightless x then None else Some (st_rid (r_state x)) in <[pl0 := ent p pl0 ++ [Resident x]]> (ent p)) pl.
Proof.
  unfold to_back. destruct (weightless x); cbv zeta.
  - rewrite ent_put_idle. destruct pl as [[]|]; rewrite ?fn_lookup_insert, ?fn_lookup_insert_ne by done; try done. by rewrite map_app.
  - rewrite ent_put, map_app, <-ent_list. done.
Qed.
Lemma acct_heads s st : a_head (sh_acct s st) = heads s (st_rid st). Proof. by destruct st. Qed.
Lemma set_head_heads s st h r : heads (set_head s st h) r = if decide (r = st_rid st) then h else heads s r.
Proof. by destruct st, r. Qed.
Lemma set_head_ents s st h : sh_ents (set_head s st h) = sh_ents s. Proof. by destruct st. Qed.
Lemma static_cfg s s' : static s' = static s → cfg s' = cfg s.
Proof. unfold static, cfg. intros H. by injection H as -> -> ->. Qed.

Lemma reweigh_inv s st t ow nw s' : reweigh s st t ow nw = Ok s' →
  ∃ es h, (if (ow =? 0)%N && negb (nw =? 0)%N then ∃ h0, slab_link (sh_ents s) t (heads s (st_rid st)) = Ok (es, h0) ∧ h = Some h0
           else if negb (ow =? 0)%N && (nw =? 0)%N then slab_unlink (sh_ents s) t = Ok (es, h)
           else es = sh_ents s ∧ h = heads s (st_rid st)) ∧
    sh_ents s' = es ∧ ∀ r, heads s' r = if decide (r = st_rid st) then h else heads s r.
Proof.
  unfold reweigh. intros H. apply bind_ok in H as (s1 & H1 & H). apply sub_weight_inv in H1 as [E1 G1].
  apply bind_ok in H as (s2 & H2 & H). apply add_weight_inv in H2 as [E2 G2].
  assert (∀ r, heads s2 r = heads s r) as G by (intros r; by rewrite G2, G1). assert (sh_ents s2 = sh_ents s) as E by congruence.
  destruct (_ && _).
  - unfold link_back in H. apply bind_ok in H as ([es h] & H3 & H). injection H as <-. rewrite acct_heads, G, E in H3.
    exists es, (Some h). split_and!; [eauto|by rewrite set_head_ents|]. intros r. rewrite set_head_heads.
    destruct (decide _); [done|]. rewrite <-G. by destruct r.
  - destruct (_ && _).
    + apply bind_ok in H as ([es h] & H3 & H). injection H as <-. rewrite E in H3.
      exists es, h. split_and!; [done|by rewrite set_head_ents|]. intros r. rewrite set_head_heads.
      destruct (decide _); [done|]. rewrite <-G. by destruct r.
    + injection H as <-. exists (sh_ents s), (heads s (st_rid st)). split_and!; [done|done|done|]. intros r. rewrite G. by destruct (decide _) as [->|].
Qed.
Lemma RH_set s T t e e0 : RH s T → its_of s !! t = Some (Some e0) → RH (set_entry s t e) T.
Proof.
  intros [[fl HR] Hh] Ht. split.
  - exists fl. by apply (RI_set _ _ _ t _ _ HR Ht).
  - intros r. rewrite <-Hh. by destruct r.
Qed.
Lemma rel_off T its E t e (r : rid) : M its T E → its !! t = Some (Some e) → pcls e ≠ Some (Some r) → t ∉ T (Some r).
Proof. intros HM Ht Hc. eapply M_notin; [done|]. intros e' He'. congruence. Qed.

Lemma rel_reweigh lim s p x y t s' : Rel lim s p → its_of s !! t = Some (Some (Resident x)) →
  r_state y = r_state x → keqb P (r_key x) (r_key y) = true →
  reweigh (set_entry s t (Resident y)) (r_state x) t (rweight x) (rweight y) = Ok s' →
  its_of s' = <[t := Some (Resident y)]> (its_of s) ∧ ∃ q, turn p x y q ∧ Rel lim s' q.
Proof.
  intros [T HR] Ht Hst Hk H. assert (t < length (its_of s)) as Hlt by by eapply lookup_lt_Some.
  pose proof (reweigh_spec LW s t x y (R_inv _ _ _ _ HR) Ht Hst Hk) as Hs. cbv zeta in Hs.
  destruct (_ <? _)%N; [|congruence]. destruct Hs as (s1 & H1 & HI & Hits & Hmap & Hstat). rewrite H1 in H. injection H as <-.
  split; [done|]. apply reweigh_inv in H1 as (es & h & Hif & Hes & Hhd).
  pose proof (RH_set _ _ t (Resident y) _ (R_rings _ _ _ _ HR) Ht) as [[fl HRI] Hh0].
  assert (items (sh_ents (set_entry s t (Resident y))) = <[t := Some (Resident y)]> (its_of s)) as Hset by by eapply its_set_entry.
  assert (∀ t', ph_at s1 t' = ph_at s t') as Hph.
  { eapply ph_at_same; [done|done|done|done|]. intros t' _. unfold mapped. by rewrite Hmap. }
  pose proof (R_lists _ _ _ _ HR) as HM. pose proof (static_cfg _ _ Hstat) as Hcfg.
  assert (pcls (Resident y) = Some (if weightless y then None else Some (st_rid (r_state x)))) as Hcy.
  { rewrite <-Hst. done. }
  assert (cfg s1 = (lm_budget lim, lm_capacity lim, lm_ghosts lim)) as Hc by (rewrite Hcfg; apply HR).
  assert ((rweight x =? 0)%N = weightless x) as Hwx by done. assert ((rweight y =? 0)%N = weightless y) as Hwy by done.
  rewrite Hwx, Hwy in Hif. clear Hwx Hwy.
  destruct (tok_item _ _ _ _ _ _ HR Ht) as [(Hwx & TA & TB & A & B & HT & HE & Hlen)|(Hwx & TA & TB & A & B & HT & HE & Hlen)];
    rewrite Hwx in Hif; destruct (weightless y) eqn:Hwy; cbn [negb andb] in Hif.
  - (* loses its weight *)
    destruct (RI_unlink _ _ _ _ _ _ _ HRI HT) as (sl' & Hun & Hit' & HRI'). rewrite Hun in Hif. injection Hif as <- <-.
    eexists. split; [eapply turn_lost; done|].
    exists (<[None := T None ++ [t]]> (<[Some (st_rid (r_state x)) := TB ++ TA]> T)). split; [done|done| | |].
    + eapply LD_ph; [apply HR|done|]. simpl. apply put_list_loads.
    + split.
      * exists fl. rewrite Hes. eapply RI_ext; [exact HRI'|]. rins.
      * intros r. rewrite Hhd, Hh0. rewrite (fn_lookup_insert_ne _ None) by done.
        destruct (decide _) as [->|]; [by rewrite fn_lookup_insert|by rewrite fn_lookup_insert_ne by congruence].
    + rewrite Hits. eapply M_ext; [eapply (M_move _ _ _ t (Resident x) (Resident y) (Some (st_rid (r_state x))) None);
        [done|done|done|rewrite ent_list, HE, map_app; done|by rewrite map_length|by right|done|done]|done|].
      intros pl'. rewrite ent_put_idle. destruct (decide (pl' = None)) as [->|Hne]; [by rewrite !fn_lookup_insert, map_app|].
      rewrite !(fn_lookup_insert_ne _ None) by done. by rewrite ent_put, map_app.
  - (* keeps one *)
    destruct Hif as [-> ->]. eexists. split; [eapply turn_list; done|]. exists T. split; [done|done| | |].
    + eapply LD_ph; [apply HR|done|]. apply put_list_loads.
    + split; [exists fl; by rewrite Hes|]. intros r. rewrite Hhd. destruct (decide _) as [->|]; apply Hh0.
    + rewrite Hits. eapply M_ext; [eapply (M_stay _ _ _ _ t (Resident x) (Resident y) (Some (st_rid (r_state x))));
        [done|by apply chg_insert|done|rewrite ent_list, HE, map_app; done|by rewrite map_length|done]|done|].
      intros pl'. by rewrite ent_put, map_app.
  - (* stays without *)
    destruct Hif as [-> ->]. eexists. split; [eapply turn_idle; done|]. exists T. split; [done|done| | |].
    + by eapply LD_ph; [apply HR|done|].
    + split; [exists fl; by rewrite Hes|]. intros r. rewrite Hhd. destruct (decide _) as [->|]; apply Hh0.
    + rewrite Hits. eapply M_ext; [eapply (M_stay _ _ _ _ t (Resident x) (Resident y) None);
        [done|by apply chg_insert|done|simpl; rewrite HE, map_app; done|by rewrite map_length|done]|done|].
      intros pl'. by rewrite ent_put_idle, map_app.
  - (* gains one *)
    destruct Hif as (h0 & Hlk & ->).
    destruct (RI_link _ _ _ t (st_rid (r_state x)) HRI) as (sl' & Hlk' & Hit' & HRI').
    { eexists. rewrite Hset. by apply list_lookup_insert. }
    { intros r. eapply rel_off; [done|done|]. simpl. assert ((rweight x =? 0)%N = true) as -> by done. done. }
    rewrite Hh0, Hlk' in Hlk. injection Hlk as <- <-.
    eexists. split; [eapply turn_gained; done|].
    exists (<[Some (st_rid (r_state x)) := T (Some (st_rid (r_state x))) ++ [t]]> (<[None := TA ++ TB]> T)). split; [done|done| | |].
    + eapply LD_ph; [apply HR|done|]. by rewrite to_back_loads.
    + split.
      * exists fl. rewrite Hes. eapply RI_ext; [exact HRI'|]. rins.
      * intros r. rewrite Hhd, Hh0.
        destruct (decide _) as [->|]; [rewrite fn_lookup_insert|by rewrite !fn_lookup_insert_ne by congruence].
        by destruct (T (Some (st_rid (r_state x)))).
    + rewrite Hits. eapply M_ext; [eapply (M_move _ _ _ t (Resident x) (Resident y) None (Some (st_rid (r_state x))));
        [done|done|done|simpl; rewrite HE, map_app; done|by rewrite map_length|by left|done|done]|done|].
      intros pl'. rewrite ent_to_back, Hwy, Hst. cbv zeta. rewrite ent_put_idle.
      destruct (decide (pl' = Some (st_rid (r_state x)))) as [->|Hne]; [by rewrite !fn_lookup_insert|].
      rewrite !(fn_lookup_insert_ne _ (Some _)) by done. by rewrite ent_put_idle, map_app.
Qed.

Lemma rel_same lim s p x y t : Rel lim s p → its_of s !! t = Some (Some (Resident x)) →
  r_state y = r_state x → rweight y = rweight x → keqb P (r_key x) (r_key y) = true →
  ∃ q, turn p x y q ∧ Rel lim (set_entry s t (Resident y)) q.
Proof.
  intros [T HR] Ht Hst Hw Hk. assert (t < length (its_of s)) as Hlt by by eapply lookup_lt_Some.
  pose proof (its_set_entry s t (Resident y) _ Ht) as Hits.
  assert (Inv (set_entry s t (Resident y))) as HI.
  { destruct (R_inv _ _ _ _ HR) as (rs & fl & HI). exists rs, fl. by eapply (same_spec LW). }
  pose proof (RH_set _ _ t (Resident y) _ (R_rings _ _ _ _ HR) Ht) as HRH.
  assert (∀ t', ph_at (set_entry s t (Resident y)) t' = ph_at s t') as Hph by (by eapply ph_at_same).
  pose proof (R_lists _ _ _ _ HR) as HM.
  assert (weightless y = weightless x) as Hwy by (unfold weightless; fold (rweight x) (rweight y); by rewrite Hw).
  assert (pcls (Resident y) = pcls (Resident x)) as Hc by (simpl; by rewrite Hw, Hst).
  destruct (tok_item _ _ _ _ _ _ HR Ht) as [(Hwx & TA & TB & A & B & HT & HE & Hlen)|(Hwx & TA & TB & A & B & HT & HE & Hlen)].
  - eexists. split; [eapply turn_list; [done|congruence]|]. exists T. split; [done|apply HR| |done|].
    + eapply LD_ph; [apply HR|done|]. apply put_list_loads.
    + rewrite Hits. eapply M_ext; [eapply (M_stay _ _ _ _ t (Resident x) (Resident y) (Some (st_rid (r_state x))));
        [done|by apply chg_insert|done|rewrite ent_list, HE, map_app; done|by rewrite map_length|]|done|].
      * rewrite Hc. simpl. by assert ((rweight x =? 0)%N = false) as -> by done.
      * intros pl'. by rewrite ent_put, map_app.
  - eexists. split; [eapply turn_idle; [done|congruence]|]. exists T. split; [done|apply HR| |done|].
    + by eapply LD_ph; [apply HR|done|].
    + rewrite Hits. eapply M_ext; [eapply (M_stay _ _ _ _ t (Resident x) (Resident y) None);
        [done|by apply chg_insert|done|simpl; rewrite HE, map_app; done|by rewrite map_length|]|done|].
      * rewrite Hc. simpl. by assert ((rweight x =? 0)%N = true) as -> by done.
      * intros pl'. by rewrite ent_put_idle, map_app.
Qed.
Lemma rel_stats lim s p (n m : N) : Rel lim s p → Rel lim (set_misses (set_hits s n) m) p.
Proof.
  intros [T [HI Hc HL [HR Hh] HM]]. exists T. split; [by apply inv_stats|done| |split; [done|]|done].
  - by eapply LD_ph.
  - intros r. rewrite <-Hh. by destruct r.
Qed.
Lemma rel_hit lim s p : Rel lim s p → Rel lim (record_hit s) p.
Proof. apply (rel_stats lim s p (sh_hits s + 1) (sh_misses s)). Qed.
Lemma rel_miss lim s p : Rel lim s p → Rel lim (record_miss s) p.
Proof. apply (rel_stats lim s p (sh_hits s) (sh_misses s + 1)). Qed.

Lemma rel_refmut lim s s0 p t x b f s' seen : Rel lim s0 p → its_of s0 !! t = Some (Some (Resident x)) →
  its_of s !! t = Some (Some (Resident b)) → (∀ e, set_entry s t e = set_entry s0 t e) →
  r_key b = r_key x → r_val b = r_val x → r_state b = r_state x →
  use_refmut s (Some (t, rweight x)) f = Ok (s', seen) →
  seen = Some (r_val x) ∧ ∃ q, turn p x (put_val b (f (r_val x))) q ∧ Rel lim s' q.
Proof.
  intros HR Ht0 Ht Hset Hk Hv Hst H. unfold use_refmut, refmut_seen in H. rewrite (peek_token_ok _ _ _ Ht) in H.
  destruct (get_live _ _ _ Ht) as (n & Hg & _). unfold refmut_write in H. rewrite Hg in H. cbn [rbind] in H.
  change (set_rval b (f (r_val b))) with (put_val b (f (r_val b))) in H. rewrite Hv, Hset in H. set (y := put_val b (f (r_val x))) in *.
  apply bind_ok in H as (s1 & H & H1). injection H1 as <- <-. split; [done|].
  assert (its_of (set_entry s0 t (Resident y)) !! t = Some (Some (Resident y))) as Ht'.
  { rewrite (its_set_entry _ _ _ _ Ht0). apply list_lookup_insert. by eapply lookup_lt_Some. }
  destruct (get_live _ _ _ Ht') as (n' & Hg' & _). unfold refmut_drop in H. rewrite Hg' in H. cbv zeta in H.
  assert (keqb P (r_key x) (r_key y) = true) as Hky by (simpl; rewrite Hk; apply (keqb_refl _ LW)).
  destruct (N.eqb_spec (rweight x) (rweight y)) as [Hw|Hw]; cbn [negb] in H.
  - injection H as <-. by apply rel_same.
  - unfold cold_change_weight in H. rewrite Hg' in H. change (r_state y) with (r_state b) in H. rewrite Hst in H.
    change (reweigh (set_entry s0 t (Resident y)) (r_state x) t (rweight x) (rweight y) = Ok s1) in H.
    eapply rel_reweigh; [done|done|exact Hst|done|done].
Qed.

(* ---- loads ---- *)
Lemma LD_del s s' p k t h : Inv s → LD s p → ph_at s t = Some (h, true) → keqb P k (p_key h) = true →
  (∀ t' h', ph_at s' t' = Some (h', true) ↔ t' ≠ t ∧ ph_at s t' = Some (h', true)) → LD s' (put_load p k None).
Proof.
  intros (rs & fl & HI) HL Ht Hk Hph k1 k0 st. simpl. destruct (keqb P k k1) eqn:Hk1.
  - split; [done|]. intros (t' & h' & [Hne Ht']%Hph & <- & <- & Hk2). exfalso. apply Hne.
    apply ph_at_Some in Ht as [Ht Hm]. apply ph_at_Some in Ht' as [Ht' Hm']. symmetry in Hm, Hm'. apply bool_decide_eq_true in Hm, Hm'.
    eapply (m_uniq _ _ _ (i_map _ _ _ HI)); [exact Hm'|exact Hm|exact Ht'|exact Ht|done|done|].
    rewrite <-(keqb_cong LW k1) by done. rewrite <-(keqb_cong LW k) by done. done.
  - rewrite (HL k1 k0 st). split.
    + intros (t' & h' & Ht' & <- & <- & Hk2). exists t', h'. split; [|done]. apply Hph. split; [|done]. intros ->.
      assert (h' = h) as -> by congruence. rewrite (keqb_symb LW k1) in Hk2. rewrite (keqb_cong LW _ _ k1 Hk) in Hk1. congruence.
    + intros (t' & h' & [_ Ht']%Hph & Hr). eauto.
Qed.
Lemma LD_add s s' p k t h : LD s p → p_key h = k → (∀ t' h', ph_at s t' = Some (h', true) → keqb P k (p_key h') = false) →
  (∀ t' h', ph_at s' t' = Some (h', true) ↔ (t' = t ∧ h' = h) ∨ ph_at s t' = Some (h', true)) →
  LD s' (put_load p k (Some (k, p_hot h))).
Proof.
  intros HL Hkh Hn Hph k1 k0 st. simpl. destruct (keqb P k k1) eqn:Hk1.
  - split.
    + intros [= <- <-]. exists t, h. split_and!; [by apply Hph; left|done|done|]. by rewrite (keqb_symb LW).
    + intros (t' & h' & [[-> ->]|Ht']%Hph & <- & <- & Hk2); [by rewrite Hkh|]. exfalso.
      specialize (Hn _ _ Ht'). rewrite (keqb_cong LW _ _ (p_key h') Hk1) in Hn. congruence.
  - rewrite (HL k1 k0 st). split.
    + intros (t' & h' & Ht' & Hr). exists t', h'. split; [|done]. apply Hph. by right.
    + intros (t' & h' & [[-> ->]|Ht']%Hph & <- & <- & Hk2); [|by exists t', h']. exfalso. rewrite Hkh, (keqb_symb LW) in Hk2. congruence.
Qed.

(* ---- an item enters ---- *)
Definition home x : place := if weightless x then None else Some (st_rid (r_state x)).
Lemma RH_back s s' T t y fl es h : RI (sh_ents s) (λ r, T (Some r)) fl → (∀ r, heads s r = head (T (Some r))) →
  live (sh_ents s) t → (∀ r, t ∉ T (Some r)) →
  (if weightless y then es = sh_ents s ∧ h = heads s (st_rid (r_state y))
   else ∃ h0, slab_link (sh_ents s) t (heads s (st_rid (r_state y))) = Ok (es, h0) ∧ h = Some h0) →
  sh_ents s' = es → (∀ r, heads s' r = if decide (r = st_rid (r_state y)) then h else heads s r) →
  RH s' (<[home y := T (home y) ++ [t]]> T) ∧ its_of s' = its_of s.
Proof.
  intros HR Hh Hlive Hn Hif Hes Hhd. unfold home. destruct (weightless y).
  - destruct Hif as [-> ->]. split; [|unfold its_of; by rewrite Hes]. split.
    + exists fl. rewrite Hes. eapply RI_ext; [exact HR|]. rins.
    + intros r. rewrite Hhd, fn_lookup_insert_ne by done. destruct (decide _) as [->|]; apply Hh.
  - destruct Hif as (h0 & Hlk & ->). destruct (RI_link _ _ _ t (st_rid (r_state y)) HR Hlive Hn) as (sl' & Hlk' & Hit & HR').
    rewrite Hh, Hlk' in Hlk. injection Hlk as <- <-. split; [|unfold its_of; by rewrite Hes]. split.
    + exists fl. rewrite Hes. eapply RI_ext; [exact HR'|]. rins.
    + intros r. rewrite Hhd. destruct (decide _) as [->|].
      * rewrite fn_lookup_insert. by destruct (T _).
      * rewrite fn_lookup_insert_ne by congruence. apply Hh.
Qed.
Lemma pcls_home y : pcls (Resident y) = Some (home y). Proof. done. Qed.
Lemma link_back_inv s st t (w : N) s' : (if negb (w =? 0)%N then link_back s st t else Ok s) = Ok s' →
  ∃ es h, (if (w =? 0)%N then es = sh_ents s ∧ h = heads s (st_rid st)
           else ∃ h0, slab_link (sh_ents s) t (heads s (st_rid st)) = Ok (es, h0) ∧ h = Some h0) ∧
    sh_ents s' = es ∧ (∀ r, heads s' r = if decide (r = st_rid st) then h else heads s r).
Proof.
  destruct (w =? 0)%N; cbn [negb].
  - intros [= <-]. exists (sh_ents s), (heads s (st_rid st)). split_and!; [done|done|done|]. intros r. by destruct (decide _) as [->|].
  - unfold link_back. intros H. apply bind_ok in H as ([es h] & H3 & H). injection H as <-. rewrite acct_heads in H3.
    exists es, (Some h). split_and!; [eauto|by rewrite set_head_ents|]. intros r. rewrite set_head_heads.
    destruct (decide _); [done|]. by destruct r.
Qed.
Lemma rel_enter lim s p k h y t s' : Rel lim s p → its_of s !! t = Some (Some (Placeholder h)) → mapped s t →
  keqb P k (p_key h) = true → keqb P (p_key h) (r_key y) = true →
  enter (set_entry s t (Resident y)) (r_state y) t (rweight y) = Ok s' →
  Rel lim s' (to_back (put_load p k None) y) ∧ its_of s' = <[t := Some (Resident y)]> (its_of s).
Proof.
  intros [T HR] Ht Hm Hk Hky H. assert (t < length (its_of s)) as Hlt by by eapply lookup_lt_Some.
  assert (a_weight (sh_acct s (r_state y)) + rweight y < two64)%N as Hw.
  { destruct (N.lt_ge_cases (a_weight (sh_acct s (r_state y)) + rweight y) two64) as [|Hge]; [done|]. rewrite enter_ovf in H; [done|].
    by destruct (r_state y). }
  destruct (enter_ph_spec LW s t h y (R_inv _ _ _ _ HR) Ht Hm Hky Hw) as (s1 & H1 & HI & Hits & Hmap & Hstat).
  rewrite H1 in H. injection H as <-. split; [|done].
  unfold enter in H1. apply bind_ok in H1 as (s2 & H2 & H1). apply add_weight_inv in H2 as [E2 G2].
  apply link_back_inv in H1 as (es & hd & Hif & Hes & Hhd). rewrite E2, G2 in Hif.
  destruct (inc_num_inv (set_entry s t (Resident y)) (r_state y)) as [E1 G1]. rewrite E1, G1 in Hif.
  pose proof (RH_set _ _ t (Resident y) _ (R_rings _ _ _ _ HR) Ht) as [[fl HRI] Hh0].
  pose proof (R_lists _ _ _ _ HR) as HM.
  destruct (RH_back (set_entry s t (Resident y)) s1 T t y fl es hd HRI Hh0) as [HRH _]; [| |done|done| |].
  { eexists. fold (its_of (set_entry s t (Resident y))). rewrite (its_set_entry _ _ _ _ Ht). by apply list_lookup_insert. }
  { intros r. by eapply rel_off. }
  { intros r. by rewrite Hhd, G2, G1. }
  eexists. split; [done| | |exact HRH|].
  - rewrite (static_cfg _ _ Hstat). apply HR.
  - eapply (LD_ph s1 _ (put_load p k None)); [|done|by rewrite to_back_loads].
    eapply (LD_del s s1 p k t h); [apply HR|apply HR|by apply ph_at_pl|done|].
    intros t' h'. rewrite (ph_at_upd s s1 t (Some (Resident y)) Hits Hlt); [|done|].
    + destruct (decide (t' = t)) as [->|]; naive_solver.
    + intros t0 _. unfold mapped. by rewrite Hmap.
  - rewrite Hits. eapply M_ext; [eapply (M_enter _ _ _ _ t (Resident y) (home y)); [done|by apply chg_insert| |done]|done|].
    + intros pl. eapply M_notin; [done|]. intros e' He'. rewrite Ht in He'. by injection He' as <-.
    + intros pl. rewrite ent_to_back. done.
Qed.

Lemma home_ghost y : home y ≠ Some RGhost.
Proof. unfold home. destruct (weightless y), (r_state y); done. Qed.
Lemma dec_nnr_inv s s' : dec_nnr s = Ok s' → sh_ents s' = sh_ents s ∧ ∀ r, heads s' r = heads s r.
Proof. unfold dec_nnr. intros H. apply bind_ok in H as (w' & _ & H). injection H as <-. split; [done|]. by intros []. Qed.
(* a ghost leaves its list *)
Lemma RH_unghost s T t A B es n : RH s T → T (Some RGhost) = A ++ t :: B → slab_unlink (sh_ents s) t = Ok (es, n) →
  let s1 := set_ents s es in
  let s2 := if bool_decide (sh_ghost_head s1 = Some t) then set_ghost_head s1 n else s1 in
  RH s2 (<[Some RGhost := A ++ B]> T) ∧ its_of s2 = its_of s ∧ sh_acct s2 = sh_acct s ∧ sh_map s2 = sh_map s.
Proof.
  intros [[fl HR] Hh] HT Hu s1 s2. destruct (RI_unlink2 _ _ _ _ _ _ _ HR HT) as (sl' & n' & Hu' & Hit & HR' & Hhd).
  rewrite Hu in Hu'. injection Hu' as <- <-. pose proof (Hh RGhost) as Hg. simpl in Hg. rewrite <-Hg in Hhd.
  assert (sh_ents s2 = es) as He by (unfold s2; by destruct (bool_decide _)).
  split_and!.
  - split.
    + exists fl. rewrite He. eapply RI_ext; [exact HR'|]. intros r. unfold rupd.
      destruct (decide (r = RGhost)) as [->|]; [by rewrite fn_lookup_insert|by rewrite fn_lookup_insert_ne by congruence].
    + assert (sh_ghost_head s2 = head (A ++ B)) as Hg2.
      { rewrite <-Hhd. unfold s2, s1; simpl. by destruct (bool_decide _). }
      intros r. specialize (Hh r). destruct r; simpl; rewrite ?fn_lookup_insert, ?fn_lookup_insert_ne by done; [| |done].
      * rewrite <-Hh. unfold s2. by destruct (bool_decide _).
      * rewrite <-Hh. unfold s2. by destruct (bool_decide _).
  - unfold its_of. by rewrite He.
  - unfold s2. by destruct (bool_decide _).
  - unfold s2. by destruct (bool_decide _).
Qed.
Lemma rel_enter_ghost lim s p y t s' : Rel lim s p → its_of s !! t = Some (Some (Ghost (hash P (r_key y)))) → absent s (r_key y) →
  r_state y = Hot → enter_ghost (set_entry s t (Resident y)) t (rweight y) = Ok s' →
  ∃ q, ghost_of p (r_key y) q ∧ Rel lim s' (to_back q y).
Proof.
  intros [T HR] Ht Ha Hst H. assert (t < length (its_of s)) as Hlt by by eapply lookup_lt_Some.
  assert (a_weight (sh_hot s) + rweight y < two64)%N as Hw.
  { destruct (N.lt_ge_cases (a_weight (sh_hot s) + rweight y) two64) as [|Hge]; [done|]. by rewrite enter_ghost_ovf in H. }
  destruct (enter_ghost_spec LW s t y (R_inv _ _ _ _ HR) Ht Ha Hst Hw) as (s1 & H1 & HI & Hits & Hmap & Hstat).
  rewrite H1 in H. injection H as <-.
  destruct (found_ghost _ _ _ _ _ _ HR Ht Ha) as (TA & TB & A & B & HT & HE & Hlen & Hg). eexists. split; [exact Hg|].
  unfold enter_ghost in H1. apply bind_ok in H1 as (s2 & H2 & H1). apply add_weight_inv in H2 as [E2 G2].
  destruct (inc_num_inv s2 Hot) as [E3 G3].
  apply bind_ok in H1 as (s4 & H4 & H1). apply dec_nnr_inv in H4 as [E4 G4].
  pose proof (RH_set _ _ t (Resident y) _ (R_rings _ _ _ _ HR) Ht) as [[fl HRI] Hh0].
  assert (RH s4 T) as HRH4.
  { split; [exists fl; by rewrite E4, E3, E2|]. intros r. by rewrite G4, G3, G2. }
  apply bind_ok in H1 as ([es n] & Hu & H1). destruct (RH_unghost _ _ _ _ _ _ _ HRH4 HT Hu) as (HRH5 & Hit5 & _). cbv zeta in HRH5, Hit5.
  set (s5 := if bool_decide _ then _ else _) in H1. fold s5 in HRH5, Hit5. change Hot with Hot in H1. rewrite <-Hst in H1 at 1.
  apply link_back_inv in H1 as (es' & hd & Hif & Hes & Hhd).
  assert (its_of s4 = <[t := Some (Resident y)]> (its_of s)) as Hit4.
  { rewrite <-(its_set_entry _ _ _ _ Ht). unfold its_of. by rewrite E4, E3, E2. }
  destruct HRH5 as [[fl5 HRI5] Hh5].
  pose proof (R_lists _ _ _ _ HR) as HM.
  destruct (RH_back s5 s1 _ t y fl5 es' hd HRI5 Hh5) as [HRH _]; [| |done|done|done|].
  { eexists. fold (its_of s5). rewrite Hit5, Hit4. by apply list_lookup_insert. }
  { intros r. pose proof (leave_notin2 _ _ _ _ _ _ _ HRI HT r) as Hni. unfold rupd in Hni. destruct (decide (r = RGhost)) as [->|].
    - by rewrite fn_lookup_insert.
    - by rewrite fn_lookup_insert_ne by congruence. }
  rewrite (fn_lookup_insert_ne _ (Some RGhost) (home y)) in HRH by (intros Hx; by destruct (home_ghost y)).
  eexists. split; [done| | |exact HRH|].
  - rewrite (static_cfg _ _ Hstat). apply HR.
  - eapply (LD_ph s _ p); [apply HR| |by rewrite to_back_loads].
    eapply ph_at_same; [done|done|done|done|]. intros t' _. unfold mapped. by rewrite Hmap.
  - rewrite Hits. eapply M_ext; [eapply (M_move _ _ _ t (Ghost (hash P (r_key y))) (Resident y) (Some RGhost) (home y)); [done|done|done| | |by left|done|apply home_ghost]|done|].
    + simpl. by rewrite HE, map_app.
    + by rewrite map_length.
    + intros pl. rewrite ent_to_back. cbv zeta. fold (home y). rewrite ent_put_ghosts.
      rewrite (fn_lookup_insert_ne _ (Some RGhost) (home y)) by (intros Hx; by destruct (home_ghost y)).
      destruct (decide (pl = home y)) as [->|Hne]; [by rewrite !fn_lookup_insert|].
      rewrite !(fn_lookup_insert_ne _ (home y)) by done. by rewrite ent_put_ghosts, map_app.
Qed.
Lemma map_insert_inv s h t s' : map_insert s h t = Ok s' → sh_ents s' = sh_ents s ∧ ∀ r, heads s' r = heads s r.
Proof. unfold map_insert. intros H. apply bind_ok in H as (m & _ & H). injection H as <-. split; [done|]. by intros []. Qed.
Lemma ph_added s s' t e : added (its_of s) (its_of s') t e → (∀ t', mapped s' t' ↔ t' = t ∨ mapped s t') →
  ∀ t', ph_at s' t' = if decide (t' = t) then match e with Placeholder h => Some (h, true) | _ => None end else ph_at s t'.
Proof.
  intros (Hn & Ht & Ho & _) Hm t'. unfold ph_at. destruct (decide (t' = t)) as [->|Hne].
  - rewrite Ht. destruct e; [done| |done]. rewrite bool_decide_true; [done|]. apply Hm. by left.
  - destruct (its_of s' !! t') as [o|] eqn:H1.
    + apply Ho in H1; [|done]. rewrite H1. destruct o as [[| |]|]; try done. do 2 f_equal. apply bool_decide_ext. rewrite Hm. naive_solver.
    + destruct (its_of s !! t') as [o|] eqn:H2; [|done]. apply (Ho t') in H2; [|done]. congruence.
Qed.
Lemma ph_at_true s t h : ph_at s t = Some (h, true) ↔ its_of s !! t = Some (Some (Placeholder h)) ∧ mapped s t.
Proof. rewrite ph_at_Some. split; intros [H1 H2]; (split; [done|]); [symmetry in H2; by apply bool_decide_eq_true in H2|by rewrite bool_decide_true]. Qed.
Lemma ph_vacant s t : (∀ e, its_of s !! t ≠ Some (Some e)) → ph_at s t = None.
Proof. intros Hn. unfold ph_at. destruct (its_of s !! t) as [[e|]|] eqn:Ht; [|done|done]. by destruct (Hn e). Qed.
Lemma rel_enter_new lim s p k v st s' t : Rel lim s p → absent s k →
  enter_new s st k v (weight P k v) (hash P k) = Ok (s', t) → Rel lim s' (to_back p (Res k v st 0)).
Proof.
  intros [T HR] Ha H. set (y := Res k v st 0).
  assert (a_weight (sh_acct s st) + weight P k v < two64)%N as Hw.
  { unfold enter_new, add_weight in H. apply bind_ok in H as (s1 & H1 & _). apply bind_ok in H1 as (w & H1 & _).
    unfold wadd in H1. destruct (N.ltb_spec (a_weight (sh_acct (inc_num s st) st) + weight P k v) two64) as [Hlt|]; [|done]. by destruct st. }
  pose proof (enter_new_spec LW (λ _, True) s st k v (R_inv _ _ _ _ HR) Ha Hw (λ _, I)) as Hs. rewrite H in Hs. simpl in Hs.
  destruct Hs as (HI & Hadd & Hmap & _ & Hstat).
  unfold enter_new in H. apply bind_ok in H as (s1 & H1 & H). apply add_weight_inv in H1 as [E1 G1].
  destruct (inc_num_inv s st) as [E0 G0]. apply bind_ok in H as ([es t1] & Hi & H). rewrite E1, E0 in Hi.
  apply bind_ok in H as (s2 & H2 & H). apply bind_ok in H as (s3 & H3 & H). injection H as -> ->. apply map_insert_inv in H3 as [E3 G3].
  destruct (R_rings _ _ _ _ HR) as [[fl HRI] Hh].
  pose proof (RI_insert (λ _, True) _ _ _ (Resident y) HRI (λ _ _, I)) as Hins. fold y in Hi. rewrite Hi in Hins. simpl in Hins.
  destruct Hins as (_ & Hni & Hit & HRI1).
  apply link_back_inv in H2 as (es' & hd & Hif & Hes & Hhd).
  assert (added (its_of s) (items es) t (Resident y)) as Hadd1 by (apply added_intro; unfold its_of; tauto).
  assert (∀ r, heads (set_ents s1 es) r = heads s r) as G2.
  { intros r. rewrite <-G0, <-G1. by destruct r. }
  destruct (RH_back (set_ents s1 es) s2 T t y (tail fl) es' hd) as [[[fl2 HRI2] Hh2] _]; [done| | |done|exact Hif|done|done|].
  { intros r. by rewrite G2. }
  { exists (Resident y). simpl. by destruct Hadd1 as (_ & ? & _). }
  exists (<[home y := T (home y) ++ [t]]> T). split; [done| | | |].
  - rewrite (static_cfg _ _ Hstat). apply HR.
  - eapply (LD_ph s _ p); [apply HR| |by rewrite to_back_loads].
    intros t'. rewrite (ph_added _ _ _ _ Hadd Hmap). destruct (decide _) as [->|]; [|done].
    symmetry. apply ph_vacant. apply Hadd.
  - split; [exists fl2; by rewrite E3|]. intros r. by rewrite G3.
  - eapply M_ext; [eapply (M_enter (its_of s) _ _ _ t (Resident y) (home y)); [apply HR|by apply chg_added| |done]|done|].
    + intros pl. eapply M_notin; [apply HR|]. intros e' He'. by destruct (proj1 Hadd e').
    + intros pl. by rewrite ent_to_back.
Qed.

(* ---- a load starts ---- *)
Lemma rel_ghost_ph lim s p k t s' : Rel lim s p → its_of s !! t = Some (Some (Ghost (hash P k))) → absent s k →
  ghost_ph s t (Pla k Hot (Plh (hash P k) t (sh_nph s))) = Ok s' →
  its_of s' !! t = Some (Some (Placeholder (Pla k Hot (Plh (hash P k) t (sh_nph s))))) ∧ mapped s' t ∧
  ∃ q, ghost_of p k q ∧ Rel lim s' (put_load q k (Some (k, Hot))).
Proof.
  intros [T HR] Ht Ha H. assert (t < length (its_of s)) as Hlt by by eapply lookup_lt_Some.
  destruct (ghost_ph_spec LW s t k (R_inv _ _ _ _ HR) Ht Ha) as (s1 & H1 & HI & Hits & Hmap & Hcfg & _ & _).
  set (h := Pla k Hot (Plh (hash P k) t (sh_nph s))) in *.
  rewrite H1 in H. injection H as <-.
  assert (mapped s1 t) as Hm. { unfold mapped. rewrite Hmap. eapply ghost_mapped; [apply HR|done]. }
  assert (its_of s1 !! t = Some (Some (Placeholder h))) as Ht1 by (rewrite Hits; by apply list_lookup_insert).
  split_and!; [done|done|].
  destruct (found_ghost _ _ _ _ _ _ HR Ht Ha) as (TA & TB & A & B & HT & HE & Hlen & Hg). eexists. split; [exact Hg|].
  unfold ghost_ph in H1. cbv zeta in H1.
  assert (RH (set_entry (set_nph s (sh_nph s + 1)) t (Placeholder h)) T) as HRH0.
  { eapply RH_set; [|exact Ht]. destruct (R_rings _ _ _ _ HR) as [HRI Hh]. split; [exact HRI|]. intros r. rewrite <-Hh. by destruct r. }
  apply bind_ok in H1 as (s2 & H2 & H1). apply dec_nnr_inv in H2 as [E2 G2].
  assert (RH s2 T) as HRH2.
  { destruct HRH0 as [HRI Hh]. split; [by rewrite E2|]. intros r. by rewrite G2. }
  apply bind_ok in H1 as ([es n] & Hu & H1). destruct (RH_unghost _ _ _ _ _ _ _ HRH2 HT Hu) as (HRH5 & _). cbv zeta in HRH5.
  match type of H1 with Ok ?z = _ => assert (z = s1) as Hz by congruence end. rewrite Hz in HRH5.
  eexists. split; [done| | |exact HRH5|].
  - rewrite Hcfg. apply HR.
  - eapply (LD_add s s1 _ k t h); [|done| |].
    + by eapply LD_ph; [apply HR|done|].
    + intros t' h' Hp. by eapply absent_ph.
    + intros t' h'. rewrite !ph_at_true. unfold mapped. rewrite Hmap. rewrite Hits. destruct (decide (t' = t)) as [->|Hne].
      * rewrite list_lookup_insert by done. split.
        -- intros [[= <-] _]. by left.
        -- intros [[_ ->]|[Hx _]]; [|congruence]. split; [done|]. eapply ghost_mapped; [apply HR|done].
      * rewrite list_lookup_insert_ne by done. split; [by right|]. by intros [[? _]|?].
  - rewrite Hits. eapply M_ext; [eapply (M_leave _ _ _ _ t (Ghost (hash P k)) (Some RGhost) TA TB (map Ghost A) (map Ghost B)); [apply HR|by apply chg_insert|done| | | |by left]|done|].
    + simpl. by rewrite HE, map_app.
    + by rewrite map_length.
    + by intros e' [= <-].
    + intros pl. change (ent (put_load ?a ?b ?c) pl) with (ent a pl). by rewrite ent_put_ghosts, map_app.
Qed.
Lemma rel_new_ph lim s p k s' sh : Rel lim s p → absent s k → (∀ t, its_of s !! t ≠ Some (Some (Ghost (hash P k)))) →
  new_ph s (hash P k) k = Ok (s', sh) →
  its_of s' !! ph_idx sh = Some (Some (Placeholder (Pla k Cold sh))) ∧ mapped s' (ph_idx sh) ∧
  unknown p k ∧ Rel lim s' (put_load p k (Some (k, Cold))).
Proof.
  intros HR0 Ha Hg H. pose proof (found_none _ _ _ _ HR0 Ha Hg) as Hun. destruct HR0 as [T HR].
  pose proof (new_ph_spec LW (λ _, True) s k (R_inv _ _ _ _ HR) Ha (λ _, I)) as Hs. rewrite H in Hs. simpl in Hs.
  destruct Hs as (_ & _ & HI & Hadd & Hmap & _ & Hcfg & _ & _). set (t := ph_idx sh) in *. set (h := Pla k Cold sh) in *.
  split_and!; [by destruct Hadd as (_ & ? & _)|apply Hmap; by left|done|].
  unfold new_ph in H. cbv zeta in H. apply bind_ok in H as ([es t1] & Hi & H). apply bind_ok in H as ([] & Has & H).
  apply bind_ok in H as (s3 & H3 & H). injection H as -> Hsh. apply map_insert_inv in H3 as [E3 G3].
  destruct (R_rings _ _ _ _ HR) as [[fl HRI] Hh].
  pose proof (RI_insert (λ _, True) _ _ _ (Placeholder (Pla k Cold (Plh (hash P k) (next_free (sh_ents s)) (sh_nph s)))) HRI (λ _ _, I)) as Hins.
  simpl in Hi. rewrite Hi in Hins. simpl in Hins. destruct Hins as (_ & Hni & _ & HRI1).
  exists T. split; [done| | | |].
  - rewrite Hcfg. apply HR.
  - eapply (LD_add s s' _ k t h); [apply HR|done| |].
    + intros t' h' Hp. by eapply absent_ph.
    + intros t' h'. rewrite (ph_added _ _ _ _ Hadd Hmap). destruct (decide (t' = t)) as [->|Hne].
      * split; [intros [= <-]; by left|]. intros [[_ ->]|Hx]; [done|]. rewrite ph_vacant in Hx; [done|apply Hadd].
      * split; [by right|]. by intros [[? _]|?].
  - split; [exists (tail fl); by rewrite E3|]. intros r. rewrite G3, <-Hh. by destruct r.
  - eapply M_ext; [eapply (M_other (its_of s) _ _ _ t (Some (Placeholder h))); [apply HR|by apply chg_added| |]|done|done].
    + intros pl. eapply M_notin; [apply HR|]. intros e' He'. by destruct (proj1 Hadd e').
    + by intros e' [= <-].
Qed.

(* ---- an entry is removed ---- *)
Definition without (t : nat) (L : list nat) : list nat := List.filter (λ t', negb (t' =? t)%nat) L.
Lemma without_off t L : t ∉ L → without t L = L.
Proof.
  induction L as [|a L IH]; [done|]. intros [Hne Hn]%not_elem_of_cons. simpl.
  destruct (Nat.eqb_spec a t); [congruence|]. simpl. by rewrite IH.
Qed.
Lemma without_in A t B : NoDup (A ++ t :: B) → without t (A ++ t :: B) = A ++ B.
Proof.
  intros Hnd. assert (NoDup (t :: A ++ B)) as Hnd' by (by rewrite Permutation_middle). apply NoDup_cons in Hnd' as [Hn _].
  apply not_elem_of_app in Hn as [HA HB]. unfold without. rewrite List.filter_app. simpl. rewrite Nat.eqb_refl. simpl.
  f_equal; by apply without_off.
Qed.
Lemma remove_inv s h t s' o : remove_internal s h t = Ok (s', o) → ∃ es e n,
  slab_remove (sh_ents s) t = Ok (es, Some (e, n)) ∧ sh_ents s' = es ∧
  ∀ r, heads s' r = if decide (match e with Resident x => Some (st_rid (r_state x)) | Ghost _ => Some RGhost | Placeholder _ => None end = Some r)
                    then if bool_decide (heads s r = Some t) then n else heads s r else heads s r.
Proof.
  unfold remove_internal. intros H. apply bind_ok in H as (s1 & H1 & H). apply map_remove_inv in H1 as [E1 G1].
  apply bind_ok in H as ([es oe] & H2 & H). rewrite E1 in H2. apply bind_ok in H as ([e n] & H3 & H). destruct oe as [[e0 n0]|]; [|done]. injection H3 as -> ->.
  exists es, e, n. split; [done|]. destruct e as [x|h0|g].
  - apply bind_ok in H as (s2 & H4 & H). apply dec_num_inv in H4 as [E4 G4].
    apply bind_ok in H as (s3 & H5 & H). apply sub_weight_inv in H5 as [E5 G5]. injection H as <- <-.
    rewrite acct_heads. assert (∀ r, heads s3 r = heads s r) as G by (intros r; rewrite G5, G4, <-G1; by destruct r).
    rewrite G. split; [by destruct (bool_decide _); rewrite ?set_head_ents, E5, E4|].
    intros r. destruct (decide (Some (st_rid (r_state x)) = Some r)) as [[= <-]|Hne].
    + destruct (bool_decide _); [|done]. rewrite set_head_heads. by rewrite decide_True.
    + destruct (bool_decide _); [|done]. rewrite set_head_heads. rewrite decide_False by congruence. done.
  - injection H as <- <-. split; [done|]. intros r. rewrite decide_False by done. rewrite <-G1. by destruct r.
  - apply bind_ok in H as (s2 & H4 & H). apply dec_nnr_inv in H4 as [E4 G4]. injection H as <- <-.
    assert (∀ r, heads s2 r = heads s r) as G by (intros r; rewrite G4, <-G1; by destruct r).
    pose proof (G RGhost) as Gg. simpl in Gg. rewrite Gg.
    split; [by destruct (bool_decide _); rewrite ?E4|].
    intros r. destruct (decide (Some RGhost = Some r)) as [[= <-]|Hne].
    + simpl. rewrite <-Gg. by destruct (bool_decide _).
    + rewrite <-G. destruct (bool_decide _); [|done]. by destruct r.
Qed.
Lemma rel_removeT lim s p T t e s' o : RelT lim s p T → its_of s !! t = Some (Some e) → mapped s t →
  remove_internal s (hash_of_entry e) t = Ok (s', o) →
  o = resident_kv e ∧
  ∃ q, RelT lim s' q (λ pl, without t (T pl)) ∧
    match e with
    | Resident x => leave p x q
    | Placeholder h => ∀ k, keqb P k (p_key h) = true → Rel lim s' (put_load p k None)
    | Ghost g => ∃ A B, q_ghosts p = A ++ g :: B ∧ q = put_ghosts p (A ++ B)
    end ∧ its_of s' = <[t := None]> (its_of s).
Proof.
  intros HR Ht Hm H. assert (t < length (its_of s)) as Hlt by by eapply lookup_lt_Some.
  destruct (remove_internal_spec LW s t e (R_inv _ _ _ _ HR) Ht Hm) as (s1 & H1 & HI & Hits & Hmap & Hstat).
  rewrite H1 in H. injection H as <- <-. split; [done|].
  destruct (removed_facts s s1 t e (R_inv _ _ _ _ HR) Ht Hm Hits Hmap) as (Hph & _ & _).
  apply remove_inv in H1 as (es & e1 & n & Hrm & Hes & Hhd).
  destruct (R_rings _ _ _ _ HR) as [[fl HRI] Hh]. pose proof (R_lists _ _ _ _ HR) as HM.
  assert (cfg s1 = (lm_budget lim, lm_capacity lim, lm_ghosts lim)) as Hc by (rewrite (static_cfg _ _ Hstat); apply HR).
  assert (∀ r A B, T (Some r) = A ++ t :: B → match e with Resident x => Some (st_rid (r_state x)) | Ghost _ => Some RGhost | Placeholder _ => None end = Some r →
    RH s1 (λ pl, without t (T pl))) as Hring.
  { intros r A B HT Hr. destruct (RI_remove2 _ _ _ _ _ _ _ e HRI HT Ht) as (sl' & n' & Hrm' & _ & HRI' & Hhd').
    rewrite Hrm in Hrm'. injection Hrm' as <- -> <-.
    assert (∀ r', without t (T (Some r')) = if decide (r' = r) then A ++ B else T (Some r')) as Hwo.
    { intros r'. destruct (decide (r' = r)) as [->|Hne].
      - rewrite HT. apply without_in. rewrite <-HT. apply HM.
      - apply without_off. intros Hin. destruct (M_in _ _ _ _ _ HM Hin) as (e2 & He2 & Hc2).
        destruct (M_in _ _ _ t (Some r) HM) as (e3 & He3 & Hc3); [rewrite HT, elem_of_app, elem_of_cons; tauto|]. congruence. }
    split.
    - exists (t :: fl). rewrite Hes. eapply RI_ext; [exact HRI'|]. intros r'. by rewrite Hwo.
    - intros r'. rewrite Hhd, Hwo, Hh. destruct (decide (r' = r)) as [->|Hne].
      + rewrite decide_True by done. done.
      + by rewrite decide_False by congruence. }
  assert ((∀ r, t ∉ T (Some r)) → RH s1 (λ pl, without t (T pl))) as Hfree.
  { intros Hn. destruct (RI_remove_free _ _ _ _ e HRI Hn Ht) as (sl' & Hrm' & _ & HRI').
    rewrite Hrm in Hrm'. injection Hrm' as <- -> ->.
    split.
    - exists (t :: fl). rewrite Hes. eapply RI_ext; [exact HRI'|]. intros r. symmetry. by apply without_off.
    - intros r. rewrite Hhd, Hh, without_off by done. destruct (decide _); [|done].
      rewrite bool_decide_false; [done|]. intros Hx. apply (Hn r). destruct (T (Some r)); [done|]. simpl in Hx. injection Hx as ->. left. }
  assert (∀ pl A B, T pl = A ++ t :: B → ∀ pl', <[pl := A ++ B]> T pl' = without t (T pl')) as HT'.
  { intros pl A B HT pl'. destruct (decide (pl' = pl)) as [->|Hne].
    - rewrite fn_lookup_insert, HT. symmetry. apply without_in. rewrite <-HT. apply HM.
    - rewrite fn_lookup_insert_ne by done. symmetry. apply without_off. intros Hin. destruct (M_in _ _ _ _ _ HM Hin) as (e2 & He2 & Hc2).
      destruct (M_in _ _ _ t pl HM) as (e3 & He3 & Hc3); [rewrite HT, elem_of_app, elem_of_cons; tauto|]. congruence. }
  assert (∀ q, q_loads q = q_loads p → (∀ h, e ≠ Placeholder h) → LD s1 q) as HLD.
  { intros q Hq Hne. eapply LD_ph; [apply HR| |done]. intros t'. rewrite Hph. destruct (decide (t' = t)) as [->|]; [|done].
    unfold ph_at. rewrite Ht. destruct e; try done. by destruct (Hne p0). }
  destruct e as [x|h|g].
  - destruct (tok_item _ _ _ _ _ _ HR Ht) as [(Hwx & TA & TB & A & B & HT & HE & Hlen)|(Hwx & TA & TB & A & B & HT & HE & Hlen)].
    + eexists. split_and!; [|by eapply leave_list|done]. split; [done|done|by apply HLD; [apply put_list_loads|]|by eapply Hring|].
      rewrite Hits. eapply M_ext; [eapply (M_leave _ _ _ _ t (Resident x) (Some (st_rid (r_state x))) TA TB (map Resident A) (map Resident B));
        [done|by apply chg_insert|done| | |done|by left]|by apply HT'|].
      * by rewrite ent_list, HE, map_app.
      * by rewrite map_length.
      * intros pl. by rewrite ent_put, map_app.
    + eexists. split_and!; [|by eapply leave_idle|done]. split; [done|done|by apply HLD| |].
      * apply Hfree. intros r. eapply rel_off; [done|done|]. simpl. assert ((rweight x =? 0)%N = true) as -> by done. done.
      * rewrite Hits. eapply M_ext; [eapply (M_leave _ _ _ _ t (Resident x) None TA TB (map Resident A) (map Resident B));
          [done|by apply chg_insert|done| | |done|by left]|by apply HT'|].
        -- simpl. by rewrite HE, map_app.
        -- by rewrite map_length.
        -- intros pl. by rewrite ent_put_idle, map_app.
  - assert (∀ pl, t ∉ T pl) as Hn.
    { intros pl. eapply M_notin; [done|]. intros e' He'. rewrite Ht in He'. by injection He' as <-. }
    assert (∀ k, keqb P k (p_key h) = true → RelT lim s1 (put_load p k None) (λ pl, without t (T pl))) as Hall.
    { intros k Hk. split; [done|done| |by apply Hfree|].
      - eapply (LD_del s s1 p k t h); [apply HR|apply HR|by apply ph_at_pl|done|].
        intros t' h'. rewrite Hph. destruct (decide (t' = t)) as [->|]; naive_solver.
      - rewrite Hits. eapply M_ext; [eapply (M_other _ _ _ _ t None); [done|by apply chg_insert|done|done]| |done].
        intros pl. symmetry. by apply without_off. }
    exists (put_load p (p_key h) None). split_and!; [apply Hall; apply (keqb_refl _ LW)| |done].
    intros k Hk. eexists. by apply Hall.
  - destruct (tok_ghost _ _ _ _ _ _ HR Ht) as (TA & TB & A & B & HT & HE & Hlen).
    exists (put_ghosts p (A ++ B)). split_and!; [|eauto|done]. split; [done|done|by apply HLD|by eapply Hring|].
    rewrite Hits. eapply M_ext; [eapply (M_leave _ _ _ _ t (Ghost g) (Some RGhost) TA TB (map Ghost A) (map Ghost B));
      [done|by apply chg_insert|done| | |done|by left]|by apply HT'|].
    + simpl. by rewrite HE, map_app.
    + by rewrite map_length.
    + intros pl. by rewrite ent_put_ghosts, map_app.
Qed.
End ops.
