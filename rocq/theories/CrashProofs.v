(* What a panic in user code leaves behind: at the points that are harmless the state is
   consistent, and its contents are those before the call or partway through its evictions. *)
From Verif Require Export UnsyncProofs CrashErase CrashSpec.

Section crashproofs.
Context {P : Params} (LW : Lawful P).
Notation K := (K P). Notation V := (V P). Notation RS := (RS P).
Notation shard := (shard P). Notation resident := (resident P). Notation contents := (contents P).
Notation M := (M (P:=P)).
Notation "'let*' x := m 'in' k" := (mbind m (λ x, k))
  (at level 200, x pattern, m at level 100, k at level 200, right associativity).
Implicit Types (s : shard) (l : lcs P) (k : K) (v : V) (c : contents) (Q : point → shard → Prop).

(* ---- reasoning about the points of a computation ---- *)
Definition tr {A} Q (m : M A) : Prop := ∀ p s, (p, s) ∈ m.1 → harmless p = true → Q p s.
Lemma tr_lift {A} Q (r : res A) : tr Q (lift r).
Proof. intros p s H. by apply elem_of_nil in H. Qed.
Lemma tr_pt Q p s : (harmless p = true → Q p s) → tr Q (pt p s).
Proof. intros H p' s' Hin. apply elem_of_list_singleton in Hin. injection Hin as -> ->. done. Qed.
Lemma tr_bind {A C} Q (m : M A) (f : A → M C) : tr Q m → (∀ a, m.2 = Ok a → tr Q (f a)) → tr Q (mbind m f).
Proof.
  intros H1 H2 p s. unfold mbind. destruct m as [t [a|e]]; simpl in *; [|apply H1].
  intros [Hin|Hin]%elem_of_app; [by apply H1|by apply (H2 a)].
Qed.
Lemma tr_bind_lift {A C} Q (r : res A) (f : A → M C) : (∀ a, r = Ok a → tr Q (f a)) → tr Q (mbind (lift r) f).
Proof. intros H. apply tr_bind; [apply tr_lift|exact H]. Qed.
Lemma tr_bind_pt {A} Q p s (f : () → M A) : (harmless p = true → Q p s) → tr Q (f ()) → tr Q (mbind (pt p s) f).
Proof. intros H1 H2. apply tr_bind; [by apply tr_pt|]. by intros [] _. Qed.
Lemma tr_mono {A} Q1 Q2 (m : M A) : (∀ p s, harmless p = true → Q1 p s → Q2 p s) → tr Q1 m → tr Q2 m.
Proof. intros H H1 p s Hin Hh. apply H; [done|]. by apply H1. Qed.
Lemma tr_harm {A} Q (m : M A) : tr (λ _ _, False) m → tr Q m.
Proof. apply tr_mono. done. Qed.
Ltac trs := repeat first
  [ apply tr_lift
  | apply tr_pt; discriminate
  | apply tr_bind_lift; intros
  | apply tr_bind_pt; [first [discriminate|intros _]|]
  | match goal with |- tr _ (match ?x with _ => _ end) => destruct x end
  | match goal with |- tr _ (let '(_, _) := ?x in _) => destruct x end ].

(* points at which the state is already the final one *)
Definition fin {A} (st : A → shard) (m : M A) : Prop :=
  ∀ p s, (p, s) ∈ m.1 → harmless p = true → calm p = false ∧ ∃ a, m.2 = Ok a ∧ st a = s.
Lemma fin_tr {A} st Q (m : M A) : fin st m → (∀ a p, m.2 = Ok a → calm p = false → Q p (st a)) → tr Q m.
Proof. intros H1 H2 p s Hin Hh. destruct (H1 _ _ Hin Hh) as (Hc & a & Ha & <-). by apply H2. Qed.
Lemma fin_lift {A} (st : A → shard) (r : res A) : fin st (lift r).
Proof. intros p s H. by apply elem_of_nil in H. Qed.
Lemma fin_bind {A C} (st : C → shard) (m : M A) (f : A → M C) :
  tr (λ _ _, False) m → (∀ a, m.2 = Ok a → fin st (f a)) → fin st (mbind m f).
Proof.
  intros H1 H2 p s. unfold mbind. destruct m as [t [a|e]]; simpl in *.
  - intros [Hin|Hin]%elem_of_app Hh; [by destruct (H1 _ _ Hin Hh)|]. by apply (H2 a eq_refl p).
  - intros Hin Hh. by destruct (H1 _ _ Hin Hh).
Qed.
Lemma fin_end {A} (st : A → shard) p s a : calm p = false → st a = s → fin st (mbind (pt p s) (λ _, lift (Ok a))).
Proof.
  intros Hc Ha p' s' Hin _. simpl in Hin. apply elem_of_list_singleton in Hin. injection Hin as -> ->. split; [done|]. by exists a.
Qed.
Ltac fins := repeat first
  [ apply fin_lift
  | apply fin_end; reflexivity
  | apply fin_bind; [solve [trs]|intros]
  | match goal with |- fin _ (match ?x with _ => _ end) => destruct x end
  | match goal with |- fin _ (let '(_, _) := ?x in _) => destruct x end ].

(* ---- eviction ---- *)
Definition Qev s l : point → shard → Prop := λ p s', calm p = false ∧ Inv s' ∧ ∃ l', ev_post s l s' l'.
Definition Qref s : point → shard → Prop := λ p s', calm p = false ∧ Inv s' ∧ refstep s s'.
Lemma ref_ev s l p s' : Qref s p s' → Qev s l p s'.
Proof. intros (A & B & C). split; [done|]. split; [done|]. exists l. by apply refstep_ev. Qed.
Lemma tr_hot_evict s0 s l i r : Inv s → refstep s0 s → tr (Qref s0) (c_hot_evict s l i r).
Proof. intros HI Hr. unfold c_hot_evict. trs. done. Qed.
Lemma get_its s i e n : slab_get (sh_ents s) i = Some (e, n) → its_of s !! i = Some (Some e).
Proof. intros H. by apply get_items in H as [H _]. Qed.
Lemma unwrap_Ok {A} (o : option A) a : unwrap o = Ok a → o = Some a.
Proof. destruct o; simpl; [|done]. by intros [= ->]. Qed.
Lemma tr_hot_loop n : ∀ s0 s l i u, Inv s → refstep s0 s → tr (Qref s0) (c_advance_hot_loop n s l i u).
Proof.
  induction n as [|n IH]; intros s0 s l i u HI Hr; simpl; [trs|].
  apply tr_bind_lift. intros [e nx] Hg. apply unwrap_Ok, get_its in Hg. destruct e as [r|p|h]; [|trs|trs].
  assert (∀ x, Inv (set_entry s i (Resident (set_key_ref r x))) ∧ refstep s0 (set_entry s i (Resident (set_key_ref r x)))) as Hs.
  { intros x. destruct HI as (rs & fl & HI). destruct (ref_spec LW s rs fl i r x HI Hg) as [H1 H2].
    split; [by exists rs, fl|by eapply refstep_trans]. }
  apply tr_bind_lift. intros _ _. apply tr_bind_pt; [done|]. destruct (rpinned r).
  - cbv zeta. destruct (_ && _); [trs|]. destruct (Hs (N.min (r_ref r) MAX_F - 1)%N). by apply IH.
  - cbv zeta. destruct (negb _); [|by apply tr_hot_evict]. destruct (Hs (N.min (r_ref r) MAX_F - 1)%N). by apply IH.
Qed.
Lemma tr_hot s l : Inv s → tr (Qev s l) (c_advance_hot s l).
Proof.
  intros HI. eapply tr_mono; [intros p s' _; apply ref_ev|]. unfold c_advance_hot. destruct (a_head _); [|trs].
  apply tr_hot_loop; [done|apply refstep_refl].
Qed.
Lemma Qev_trans s l s1 l1 p s' : ev_post s l s1 l1 → Qev s1 l1 p s' → Qev s l p s'.
Proof. intros H (A & B & l' & C). split; [done|]. split; [done|]. exists l'. by eapply ev_trans. Qed.
Lemma hot_step s l s1 l1 b : Inv s → advance_hot s l = Ok (s1, l1, b) → Inv s1 ∧ ev_post s l s1 l1.
Proof.
  intros HI E. destruct (advance_hot_spec LW s l HI) as (s' & l' & b' & E' & H). rewrite E in E'. injection E' as <- <- <-.
  destruct b; [by destruct H as (? & ? & _)|]. destruct H as (-> & ? & ? & _). split; [done|by apply refstep_ev].
Qed.
Lemma tr_trim n : ∀ s l, Inv s → tr (Qev s l) (c_trim_hot n s l).
Proof.
  induction n as [|n IH]; intros s l HI; simpl; [trs|]. destruct (_ <? _)%N; [|trs].
  apply tr_bind; [by apply tr_hot|]. intros [[s1 l1] b]. rewrite er_advance_hot. intros E.
  destruct (hot_step _ _ _ _ _ HI E) as [H1 H2]. destruct b; [|trs].
  eapply tr_mono; [|by apply IH]. intros p s' _. by apply Qev_trans.
Qed.

(* the promoted entry is hot *)
Lemma promote_link_spec s l rs fl idx r A B s2 :
  Inv' s rs fl → rs RCold = A ++ idx :: B → its_of s !! idx = Some (Some (Resident r)) →
  let r' := set_rstate (set_key_ref r (r_ref r - 1)) Hot in
  promote_link (set_entry s idx (Resident r')) idx r' = Ok s2 → Inv s2 ∧ ev_post s l s2 l.
Proof.
  intros HI HAB Ht r' E.
  assert (idx ∈ rs RCold) as Hin by (rewrite HAB, elem_of_app, elem_of_cons; tauto).
  destruct (inv_ring_cold _ _ _ _ HI Hin) as (r0 & Ht0 & Hst & Hw).
  rewrite Ht in Ht0. simplify_eq.
  destruct r0 as [k v st x]; simpl in Hst; subst st. unfold rweight in *; simpl in *.
  destruct (i_acc _ _ _ HI) as [Haw Han Hag].
  pose proof (Haw Hot) as HawH. pose proof (Han Hot) as HanH. simpl in HawH, HanH.
  pose proof (Haw Cold) as HawC. pose proof (Han Cold) as HanC. simpl in HawC, HanC.
  pose proof (esum_ge (wof Cold) _ _ _ Ht) as Hge1. pose proof (esum_ge (nof Cold) _ _ _ Ht) as Hge2.
  simpl in Hge1, Hge2. unfold rweight in Hge1; simpl in Hge1.
  assert (idx < length (its_of s)) as Hlt by (by eapply lookup_lt_Some).
  destruct (RI_set _ _ _ idx (Resident (Res k v Hot (x - 1))) _ (i_ri _ _ _ HI) Ht) as [Hit HRI].
  destruct (RI_unlink _ _ _ _ _ _ _ HRI HAB) as (sl' & Hun & Hit' & HRI').
  pose proof (i_heads _ _ _ HI RHot) as HhH. simpl in HhH.
  destruct (RI_link sl' _ _ idx RHot HRI') as (sl2 & Hlk & Hit3 & HRI3).
  { eexists. rewrite Hit', Hit. by apply list_lookup_insert. }
  { by eapply leave_notin. }
  rewrite rupd_ne in Hlk by done. rewrite <-HhH in Hlk.
  unfold promote_link, add_weight, sub_weight, dec_num, rweight, r', set_rstate, set_key_ref in E. simpl in E.
  unfold wadd in E. destruct (N.ltb_spec (a_weight (sh_hot s) + weight P k v) two64) as [HW|HW]; simpl in E; [|done].
  rewrite wsub_ok in E by lia. simpl in E. rewrite wsub_ok in E by lia. simpl in E.
  rewrite Hun in E. simpl in E. rewrite Hlk in E. simpl in E. injection E as <-.
  match goal with |- Inv ?x ∧ _ => set (s2 := x) end.
  assert (its_of s2 = <[idx := Some (Resident (Res k v Hot (x - 1)))]> (its_of s)) as Hits.
  { unfold its_of, s2; simpl. by rewrite Hit3, Hit', Hit. }
  split.
  { exists (rupd (rupd rs RCold (B ++ A)) RHot (rs RHot ++ [idx])), fl. split.
    - rewrite rupd_ne in HRI3 by done. apply HRI3.
    - intros r0. pose proof (i_heads _ _ _ HI r0) as Hh0.
      destruct r0; simpl in *; [rewrite rupd_eq|by rewrite rupd_ne, rupd_eq by done|by rewrite !rupd_ne by done].
      rewrite Hh0. by destruct (rs RHot).
    - rewrite Hits. rewrite <-(list_insert_insert (its_of s) idx _ None).
      replace (rs RHot) with (rupd rs RCold (B ++ A) RHot) by (by rewrite rupd_ne).
      apply memb_join; [|by rewrite insert_length| |].
      + eapply memb_leave; [apply HI|apply HI|done|done|done].
      + eapply leave_notin; [apply HI|done].
      + by apply (cls_nz (Res k v Hot (x - 1))).
    - rewrite Hits. split.
      + intros []; simpl; rewrite (esum_upd _ _ _ _ _ Ht); simpl; unfold rweight; simpl; lia.
      + intros []; simpl; rewrite (esum_upd _ _ _ _ _ Ht); simpl; unfold rweight; simpl; lia.
      + simpl; rewrite (esum_upd _ _ _ _ _ Ht); simpl; lia.
    - apply HI.
    - rewrite Hits. simpl. eapply (MI_set_res LW); [apply HI|done|done|done|done|by right]. }
  eapply (ev_step s l s2 l idx _ _ []); [done|done|done|done|done|done| |].
  - by rewrite app_nil_r.
  - simpl. apply evicts_refl.
Qed.
Lemma tr_promote s l rs fl idx r A B :
  Inv' s rs fl → rs RCold = A ++ idx :: B → its_of s !! idx = Some (Some (Resident r)) →
  tr (Qev s l) (c_cold_promote s l idx r).
Proof.
  intros HI HAB Ht. unfold c_cold_promote. cbv zeta. apply tr_bind_pt; [done|]. apply tr_bind_lift. intros s2 E.
  destruct (promote_link_spec s l rs fl idx r A B s2 HI HAB Ht E) as [H1 H2].
  apply tr_bind; [|intros [? ?] _; trs]. eapply tr_mono; [|by apply tr_trim]. intros p s' _. by apply Qev_trans.
Qed.
Lemma tr_cold_evict s l rs fl idx r A B :
  Inv' s rs fl → rs RCold = A ++ idx :: B → its_of s !! idx = Some (Some (Resident r)) → rpinned r = false →
  tr (Qev s l) (c_cold_evict s l idx r).
Proof.
  intros HI HAB Ht Hp.
  destruct (cold_evict_spec LW s l rs fl idx r A B HI HAB Ht Hp) as (s' & l' & E & H1 & H2 & _).
  rewrite <-er_cold_evict in E. unfold c_cold_evict in E |- *.
  apply tr_bind_pt; [intros _; split; [done|]; split; [by exists rs, fl|exists l; apply ev_refl]|].
  match goal with |- tr _ ?m => assert (m.2 = Ok (s', l', true)) as E' by exact E end. clear E.
  eapply (fin_tr (λ a, a.1.1)).
  - fins.
  - intros a p Ha Hc. assert (a = (s', l', true)) as -> by congruence. split; [done|]. split; [done|by exists l'].
Qed.

Lemma Qev_now s l p : Inv s → calm p = false → Qev s l p s.
Proof. intros. split; [done|]. split; [done|]. exists l. apply ev_refl. Qed.
Lemma tr_cold_loop n : ∀ s l rs fl idx A B, Inv' s rs fl → rs RCold = A ++ idx :: B →
  tr (Qev s l) (c_advance_cold_loop n s l idx).
Proof.
  induction n as [|n IH]; intros s l rs fl idx A B HI HAB; simpl; [trs|].
  assert (Inv s) as HI0 by (by exists rs, fl).
  assert (NoDup (rs RCold)) as Hnd by (by eapply RI_NoDup, HI).
  assert (idx ∈ rs RCold) as Hin by (rewrite HAB, elem_of_app, elem_of_cons; tauto).
  destruct (inv_ring_cold _ _ _ _ HI Hin) as (r & Ht & Hst & Hw).
  destruct (RI_get _ _ _ _ _ _ _ (i_ri _ _ _ HI) HAB) as (e & nx & Hg & He & Hnx).
  assert (e = Resident r) as -> by (unfold its_of in Ht; congruence). clear He.
  apply tr_bind_lift. intros [e nx']. rewrite Hg. simpl. intros [= <- <-].
  apply tr_bind_lift. intros _ _. destruct (negb _); [by eapply tr_promote|].
  apply tr_bind_pt; [intros _; by apply Qev_now|]. destruct (rpinned r) eqn:Hp; [|by eapply tr_cold_evict].
  pose proof (i_heads _ _ _ HI RCold) as Hh. simpl in Hh. rewrite Hh, HAB. destruct B as [|b B].
  - case_bool_decide as Hd; [by apply tr_hot|]. exfalso. apply Hd. rewrite Hnx. simpl. by destruct A.
  - simpl in Hnx. injection Hnx as ->. rewrite bool_decide_false; [|apply ring_neq_head; by rewrite <-HAB].
    apply (IH s l rs fl b (A ++ [idx]) B); [done|]. by rewrite <-(assoc_L (++)).
Qed.
Lemma tr_cold s l : Inv s → tr (Qev s l) (c_advance_cold s l).
Proof.
  intros HI. pose proof HI as (rs & fl & HI'). unfold c_advance_cold.
  pose proof (i_heads _ _ _ HI' RCold) as Hh. simpl in Hh. rewrite Hh.
  destruct (rs RCold) as [|idx B] eqn:HAB; simpl; [by apply tr_hot|]. by apply (tr_cold_loop _ s l rs fl idx [] B).
Qed.
Lemma tr_evict_loop n : ∀ s l x, Inv s → tr (Qev s l) (c_evict_loop n s l x).
Proof.
  induction n as [|n IH]; intros s l x HI; simpl; [trs|]. apply tr_bind_lift. intros a Ha.
  apply tr_bind_lift. intros a' _. destruct (_ <? _)%N; [|trs].
  apply tr_bind; [by apply tr_cold|]. intros [[s1 l1] b]. rewrite er_advance_cold. intros E.
  destruct (advance_cold_spec LW s l HI) as (s' & l' & b' & E' & H).
  { rewrite (wsum_total s HI). unfold wadd in Ha. destruct (N.ltb_spec (a_weight (sh_hot s) + a_weight (sh_cold s)) two64); [done|discriminate]. }
  rewrite E in E'. injection E' as <- <- <-. destruct b; [|trs]. destruct H as (HI1 & Hev & _).
  eapply tr_mono; [|by apply IH]. intros p s' _. by apply Qev_trans.
Qed.
Lemma tr_evict s l x : Inv s → tr (Qev s l) (c_evict_until s l x).
Proof. apply tr_evict_loop. Qed.

(* ---- the calls ---- *)
Lemma tr_assoc {A C D} Q (m : M A) (f : A → M C) (g : C → M D) :
  tr Q (mbind m (λ a, mbind (f a) g)) → tr Q (mbind (mbind m f) g).
Proof.
  unfold tr, mbind. destruct m as [t [a|e]]; simpl; [|done].
  destruct (f a) as [t' [c|e]]; simpl; [|done]. by rewrite (assoc_L (++)).
Qed.
Definition start c k v c0 : Prop := c0 ≡ₚ c ∨ c0 ≡ₚ del k c ∨
   ∃ kp v1, keqb P k kp = true ∧ (v1 = v ∨ ∃ rs0 rs1, before_evict P rs0 kp v = (rs1, v1)) ∧
     c0 ≡ₚ (kp, v1) :: del k c.
Lemma start_part c k v c0 rs es rs' c' : start c k v c0 → evicts rs c0 es rs' c' → partway c k v c'.
Proof. intros. by exists c0, rs, es, rs'. Qed.
Lemma start_now (rs : RS) c k v c' : start c k v c' → partway c k v c'.
Proof. intros H. apply (start_part _ _ _ _ rs [] rs _ H). apply evicts_refl. Qed.
Definition Qin s k v : point → shard → Prop := λ p s', Inv s' ∧ cfg s' = cfg s ∧
  if calm p then sh_iter s' ≡ₚ sh_iter s else partway (sh_iter s) k v (sh_iter s').
Lemma Qin_ev s s1 l1 k v p s' : cfg s1 = cfg s → start (sh_iter s) k v (sh_iter s1) → Qev s1 l1 p s' → Qin s k v p s'.
Proof.
  intros Hc Hs (Hp & HI & l' & Hev). destruct (cfg_static _ _ (ep_static _ _ _ _ Hev)) as [Hc' _].
  split; [done|]. split; [congruence|]. rewrite Hp. destruct (ep_ev _ _ _ _ Hev) as (es & _ & He). by eapply start_part.
Qed.
Lemma Qin_now (rs : RS) s k v p s' : Inv s' → cfg s' = cfg s → (calm p = true → sh_iter s' ≡ₚ sh_iter s) →
  start (sh_iter s) k v (sh_iter s') → Qin s k v p s'.
Proof.
  intros HI Hc Hi Hs. split; [done|]. split; [done|]. destruct (calm p); [by apply Hi|by apply (start_now rs)].
Qed.
Lemma Qin_same (rs : RS) s k v p s' : Inv s' → cfg s' = cfg s → sh_iter s' ≡ₚ sh_iter s → Qin s k v p s'.
Proof. intros. apply (Qin_now rs); try done. by left. Qed.
(* no load becomes pending *)
Definition nonew s s' : Prop := (sh_nph s ≤ sh_nph s')%N ∧
  ∀ t q b, ph_at s' t = Some (q, b) → ph_at s t = Some (q, b) ∨ (b = false ∧ (sh_nph s ≤ ph_id (p_shared q))%N).
Lemma nonew_refl s : nonew s s.
Proof. split; [lia|by left]. Qed.
Lemma nonew_same s s' : sh_nph s' = sh_nph s → (∀ t q b, ph_at s' t = Some (q, b) → ph_at s t = Some (q, b)) → nonew s s'.
Proof. intros Hn H. split; [lia|]. intros t q b Hq. left. by apply H. Qed.
Lemma nonew_trans s1 s2 s3 : nonew s1 s2 → nonew s2 s3 → nonew s1 s3.
Proof.
  intros [L1 H1] [L2 H2]. split; [lia|]. intros t q b H. destruct (H2 _ _ _ H) as [H'|[-> ?]]; [|right; split; [done|lia]]. by apply H1.
Qed.
Lemma nonew_true s s' t q : nonew s s' → ph_at s' t = Some (q, true) → ph_at s t = Some (q, true).
Proof. intros [_ H] Hq. by destruct (H _ _ _ Hq) as [?|[? _]]. Qed.
Lemma nonew_ev s s1 l s' l' : nonew s s1 → ev_post s1 l s' l' → nonew s s'.
Proof.
  intros H Hev. eapply nonew_trans; [exact H|]. apply nonew_same; [by destruct (ev_cfg _ _ _ _ Hev) as (_ & _ & ?)|].
  intros t q b. by rewrite (ev_ph _ _ _ _ _ Hev).
Qed.
Lemma nph_static s s' : static s' = static s → sh_nph s' = sh_nph s.
Proof. unfold static. intros H. by injection H. Qed.
Lemma nonew_set s s' t e r : static s' = static s → its_of s !! t = Some (Some e) → its_of s' = <[t := Some (Resident r)]> (its_of s) → sh_map s' = sh_map s → nonew s s'.
Proof.
  intros Hn Ht Hit Hm. apply nonew_same; [by apply nph_static|]. intros t' q b. rewrite (ph_at_upd s s' t (Some (Resident r))); [|done|by eapply lookup_lt_Some|done|].
  - by case_decide.
  - intros t2 _. unfold mapped. by rewrite Hm.
Qed.
Definition Qn s k v : point → shard → Prop := λ p s', Qin s k v p s' ∧ nonew s s'.
Lemma Qn_ev s s1 l1 k v p s' : cfg s1 = cfg s → start (sh_iter s) k v (sh_iter s1) → nonew s s1 → Qev s1 l1 p s' → Qn s k v p s'.
Proof. intros Hc Hs Hn HQ. split; [by eapply Qin_ev|]. destruct HQ as (_ & _ & l' & Hev). by eapply nonew_ev. Qed.
Lemma Qn_same (rs : RS) s k v p : Inv s → Qn s k v p s.
Proof. intros. split; [by apply (Qin_same rs)|apply nonew_refl]. Qed.
Lemma tr_end {A} Q s wl (a : A) : (wl = false → Q PEnd s) → tr Q (end_request s wl a).
Proof. intros H. destruct wl; simpl; [apply tr_lift|]. trs. by apply H. Qed.
Lemma tr_rehash Q gr ip s ps : (harmless gr = true → Q gr s) → harmless ip = false → ∀ d, tr Q (c_rehash gr ip s d ps).
Proof.
  intros Hg Hi. induction ps as [|[h t] ps IH]; intros d; simpl; [trs|].
  apply tr_bind_pt; [done|]. apply tr_bind_pt; [congruence|]. apply tr_bind_lift. intros. apply IH.
Qed.
Lemma tr_grow Q gr ip s : (harmless gr = true → Q gr s) → harmless ip = false → tr Q (c_grow gr ip s).
Proof. intros. unfold c_grow. destruct (grows _ _); [|apply tr_lift]. by apply tr_rehash. Qed.
Lemma tr_map_insert Q gr ip s h t : (harmless gr = true → Q gr s) → harmless ip = false → tr Q (c_map_insert gr ip s h t).
Proof. intros. apply tr_bind; [by apply tr_grow|]. intros. apply tr_lift. Qed.

Lemma tr_search Q s h k : Q PEq s → tr Q (c_search s h k).
Proof. intros. unfold c_search. trs. done. Qed.
Lemma tr_search_resident Q s h k : Q PEq s → tr Q (c_search_resident s h k).
Proof. intros. unfold c_search_resident. trs. done. Qed.
Lemma tr_remove_internal Q s h i : tr Q (c_remove_internal s h i).
Proof. unfold c_remove_internal. trs. Qed.
Lemma tr_use_refmut Q s o f : tr Q (c_use_refmut s o f).
Proof. unfold c_use_refmut. destruct o as [[t w]|]; [|trs]. trs. apply tr_bind; [|intros; trs]. unfold c_refmut_drop. trs. Qed.
Lemma tr_peek_token Q s t : Q PLook s → tr Q (c_peek_token_mut s t).
Proof. intros. unfold c_peek_token_mut. trs. done. Qed.
Lemma tr_retain_remove Q q : ∀ s, tr Q (c_retain_remove s q).
Proof.
  induction q as [|[i h] q IH]; intros s; simpl; [trs|]. apply tr_bind; [apply tr_remove_internal|]. intros [s' o] _. apply IH.
Qed.

Definition new_value (k : K) v v1 : Prop := v1 = v ∨ ∃ rs0 rs1, before_evict P rs0 k v = (rs1, v1).
Lemma tr_over s l k v v1 strat : Inv s → tr (Qn s k v) (c_handle_insert_overweight s l (hash P k) k v1 strat).
Proof.
  intros HI. unfold c_handle_insert_overweight.
  apply tr_bind; [apply tr_search_resident; by apply (Qn_same (lrs l))|].
  intros o. rewrite er_search_resident. intros Eo.
  destruct (search_resident_spec LW s k HI) as (o' & Eo' & Ho). rewrite Eo in Eo'. injection Eo' as <-.
  destruct o as [[t r]|].
  - apply tr_assoc. destruct Ho as (Ht & Hk & Hf). pose proof (res_mapped _ _ _ HI Ht) as Hm.
    destruct (remove_internal_spec LW s t _ HI Ht Hm) as (s' & Hrm & HI' & Hit & Hmap & Hst).
    simpl in Hrm. rewrite <-(hash_keqb _ LW _ _ Hk) in Hrm.
    apply tr_bind; [apply tr_remove_internal|]. intros [s1 o1]. rewrite er_remove_internal. rewrite Hrm. intros [= <- <-].
    assert (Qn s k v PRefused s') as HQ.
    { split; [|apply nonew_same; [by apply nph_static|]; intros t' q b; destruct (removed_facts s s' t _ HI Ht Hm Hit Hmap) as [-> _]; by case_decide].
      destruct (cfg_static _ _ Hst) as [Hc _]. apply (Qin_now (lrs l)); try done. right. left. rewrite (sh_iter_kvs s'), Hit.
      by apply (del_kvs LW s t r). }
    apply tr_assoc, tr_bind_pt; [done|]. apply tr_bind_lift. intros [s2 l2] [= <- <-]. trs. done.
  - apply tr_bind_lift. intros [s2 l2] [= <- <-]. trs. by apply (Qn_same (lrs l)).
Qed.
Lemma adm_value budget rs k v rs1 es v1 b : admission budget rs k v = (rs1, es, v1, b) → new_value k v v1.
Proof.
  unfold admission, new_value. destruct (_ && _); [|intros [= <- <- <- <-]; by left].
  destruct (before_evict P rs k v) as [rs0 v0] eqn:E. intros [= <- <- <- <-]. right. by exists rs, rs0.
Qed.

Lemma tr_finish s s1 l1 k v : Inv s1 → cfg s1 = cfg s → start (sh_iter s) k v (sh_iter s1) → nonew s s1 →
  tr (Qn s k v) (let* (s', l') := c_evict_until s1 l1 0 in lift (Ok (s', l', @None (K * V)))).
Proof.
  intros HI Hc Hs Hn. apply tr_bind; [|intros [? ?] _; trs].
  eapply tr_mono; [|by apply tr_evict]. intros p s' _. by apply Qn_ev.
Qed.
Lemma tr_insert s l k v strat : Inv s → tr (Qn s k v) (c_insert s l (hash P k) k v strat).
Proof.
  intros HI. unfold c_insert. apply tr_bind_pt; [intros _; by apply (Qn_same (lrs l))|].
  pose proof (admission_eq (sh_target_hot s) l k v) as Had. unfold admission_l in Had.
  destruct (admission (sh_target_hot s) (lrs l) k v) as [[[rs1 es0] v1] over] eqn:Hadm. cbv zeta. rewrite Had. clear Had.
  apply adm_value in Hadm. set (l1 := Lcs rs1 (llog l ++ es0)). destruct over; [by apply tr_over|].
  apply tr_bind; [apply tr_search; by apply (Qn_same (lrs l))|]. intros o. rewrite er_search.
  destruct (search_spec LW s k HI) as (o' & -> & Ho). intros [= <-].
  destruct Ho as [t e k' Hm Ht He Hk|t Hm Ht Ha|Ha Hg].
  - unfold c_insert_existing. apply tr_bind_lift. intros e'. rewrite (entry_at_ok _ _ _ Ht). intros [= <-].
    destruct e as [r|q|h]; simpl in He; [injection He as <-|injection He as <-|done]; cbn beta iota zeta.
    + apply tr_assoc, tr_bind_lift. intros _ _.
      set (r' := Res k v1 (r_state r) (N.min (r_ref r + (if is_soft strat then 0 else 1)) MAX_F)).
      pose proof (reweigh_spec LW s t r r' HI Ht eq_refl (keqb_sym _ LW _ _ Hk)) as Hrw. simpl in Hrw.
      change (rweight r') with (weight P k v1) in Hrw.
      apply tr_assoc, tr_bind_pt; [done|]. apply tr_assoc, tr_bind_lift. intros s1 E1. apply tr_assoc, tr_bind_lift. intros s2 E2.
      apply tr_assoc, tr_bind_lift. intros s3 E3.
      assert (reweigh (set_entry s t (Resident r')) (r_state r) t (rweight r) (weight P k v1) = Ok s3) as Er.
      { unfold reweigh. rewrite E1. simpl. rewrite E2. simpl. exact E3. }
      rewrite Er in Hrw. destruct (_ <? two64)%N; [|done]. destruct Hrw as (s3' & [= <-] & HI3 & Hit3 & Hm3 & Hst3).
      destruct (cfg_static _ _ Hst3) as [Hc3 _].
      assert (start (sh_iter s) k v (sh_iter s3)) as Hs3.
      { right. right. exists k, v1. split; [apply (keqb_refl _ LW)|]. split; [done|].
        rewrite (sh_iter_kvs s3), Hit3. etrans; [by apply (kvs_insert _ _ _ _ Ht)|]. simpl. f_equiv. by apply (del_kvs LW s t r). }
      apply tr_assoc, tr_bind_pt; [intros _; split; [by apply (Qin_now (lrs l))|by eapply nonew_set]|]. apply tr_bind_lift. intros [s4 l4] [= <- <-].
      apply tr_finish; [done|done|done|by eapply nonew_set].
    + destruct (is_replace strat) eqn:Hrep; [trs|]. cbn beta iota zeta.
      assert (find_key k (sh_iter s) = None) as Hf.
      { eapply (absent_reskey LW s k t); [done|done|exact Ht|done| |done]. by intros k' [= <-]. }
      apply tr_assoc, tr_bind_lift. intros s1 E1. apply tr_assoc, tr_bind_lift. intros s2 E2.
      apply tr_bind_lift. intros [s4 l4] [= <- <-].
      set (r' := Res k v1 (p_hot q) 1).
      assert (enter (set_entry s t (Resident r')) (p_hot q) t (weight P k v1) = Ok s2) as Er.
      { unfold enter, r'. rewrite E1. simpl. exact E2. }
      destruct (N.ltb_spec (a_weight (sh_acct s (p_hot q)) + weight P k v1) two64) as [HW|HW].
      2:{ rewrite enter_ovf in Er; [done|]. by destruct (p_hot q). }
      destruct (enter_ph_spec LW s t q r' HI Ht Hm (keqb_sym _ LW _ _ Hk) HW) as (s3 & Hen & HI3 & Hit3 & Hm3 & Hst3).
      simpl in Hen. change (rweight r') with (weight P k v1) in Hen. rewrite Er in Hen. injection Hen as <-.
      destruct (cfg_static _ _ Hst3) as [Hc3 _]. apply tr_finish; [done|done| |by eapply nonew_set].
      right. right. exists k, v1. split; [apply (keqb_refl _ LW)|]. split; [done|].
      rewrite (del_none _ _ Hf), !sh_iter_kvs, Hit3. etrans; [by apply (kvs_insert _ _ _ _ Ht)|]. simpl. f_equiv.
      by rewrite (kvs_same _ _ _ None Ht).
  - unfold c_insert_existing. apply tr_bind_lift. intros e'. rewrite (entry_at_ok _ _ _ Ht). intros [= <-].
    cbn beta iota zeta. destruct (is_replace strat) eqn:Hrep; [trs|]. cbn beta iota zeta.
    pose proof (absent_find _ _ HI Ha) as Hf.
    apply tr_assoc, tr_bind_lift. intros s1 E1. apply tr_assoc, tr_bind_lift. intros s2 E2.
    apply tr_assoc, tr_bind_lift. intros [es ng] E3. apply tr_assoc, tr_bind_lift. intros s4 E4.
    apply tr_bind_lift. intros [s5 l5] [= <- <-].
    set (r' := Res k v1 Hot 0).
    assert (enter_ghost (set_entry s t (Resident r')) t (weight P k v1) = Ok s4) as Er.
    { unfold enter_ghost, r'. rewrite E1. cbn [rbind]. rewrite E2. cbn [rbind]. rewrite E3. exact E4. }
    destruct (N.ltb_spec (a_weight (sh_hot s) + weight P k v1) two64) as [HW|HW].
    2:{ by rewrite enter_ghost_ovf in Er. }
    destruct (enter_ghost_spec LW s t r' HI Ht Ha eq_refl HW) as (s3 & Hen & HI3 & Hit3 & Hm3 & Hst3).
    change (rweight r') with (weight P k v1) in Hen. rewrite Er in Hen. injection Hen as <-.
    destruct (cfg_static _ _ Hst3) as [Hc3 _]. apply tr_finish; [done|done| |by eapply nonew_set].
    right. right. exists k, v1. split; [apply (keqb_refl _ LW)|]. split; [done|].
    rewrite (del_none _ _ Hf), !sh_iter_kvs, Hit3. etrans; [by apply (kvs_insert _ _ _ _ Ht)|]. simpl. f_equiv.
    by rewrite (kvs_same _ _ _ None Ht).
  - destruct (is_replace strat); [trs|]. apply tr_bind_lift. intros hw _. cbv zeta.
    apply tr_bind.
    { eapply tr_mono; [|by apply tr_evict]. intros p s' _. apply Qn_ev; [done|by left|apply nonew_refl]. }
    intros [s1 l2] _. trs; (apply tr_bind; [by apply tr_map_insert|]; intros; trs).
Qed.

(* a pending entry that the hash table does not know yet *)
Definition Qsame s : point → shard → Prop := λ _ s', Inv s' ∧ cfg s' = cfg s ∧ sh_iter s' ≡ₚ sh_iter s.
Lemma Qsame_in (rs : RS) s k v p s' : Qsame s p s' → Qin s k v p s'.
Proof. intros (A & C & D). by apply (Qin_same rs). Qed.
Lemma Qsame_now s p : Inv s → Qsame s p s.
Proof. intros HI. unfold Qsame. by split_and!. Qed.
Lemma unmapped_ph s k es i : Inv s → absent s k →
  slab_insert (sh_ents s) (Placeholder (Pla k Cold (Plh (hash P k) (next_free (sh_ents s)) (sh_nph s)))) = Ok (es, i) →
  Qsame s PUpsertGrow (set_ents (set_nph s (sh_nph s + 1)) es).
Proof.
  intros (rs & fl & HI) Ha E.
  pose proof (RI_insert (λ _, True) _ _ _ (Placeholder (Pla k Cold (Plh (hash P k) (next_free (sh_ents s)) (sh_nph s))))
    (i_ri _ _ _ HI) ltac:(done)) as H.
  rewrite E in H. simpl in H. destruct H as (Htn & Hni & Hit & HR1).
  rename i into t. rewrite <-Htn in *.
  set (p := Pla k Cold (Plh (hash P k) t (sh_nph s))) in *.
  assert (added (its_of s) (items es) t (Placeholder p)) as Hadd by (apply added_intro; unfold its_of; tauto).
  destruct Hadd as (Hn & Ht & Hfr & Hsum & Hkv).
  destruct (i_acc _ _ _ HI) as [HAw HAn HAg].
  assert (MI ((hash P k, t) :: tpairs (sh_map s)) (items es) (sh_nph s + 1)) as HM.
  { change (hash P k) with (hash_of_entry (Placeholder p)).
    eapply (MI_add LW); [apply HI|done|done| |lia| |].
    - intros t' e0 Hne. by apply Hfr.
    - simpl. intros k0 [= <-] t2 e2 k2 H1 H2 H3. by eapply Ha.
    - intros p' [= <-]. simpl. split_and!; [done|done|lia|lia]. }
  split_and!; [|done|].
  - exists rs, (tail fl). split; simpl; [done|apply (i_heads _ _ _ HI)| | |apply HI|].
    + intros r0 t'. change (its_of _) with (items es). destruct (decide (t' = t)) as [->|Hne].
      * split; [by intros ?%Hni|]. intros (e & He & Hc). rewrite Ht in He. by simplify_eq.
      * rewrite (i_memb _ _ _ HI r0 t'). split; intros (e & He & Hc); exists e; split; try done; by apply Hfr in He.
    + change (its_of _) with (items es). split; simpl.
      * intros st. rewrite Hsum. simpl. rewrite N.add_0_r. specialize (HAw st). by destruct st.
      * intros st. rewrite Hsum. simpl. rewrite N.add_0_r. specialize (HAn st). by destruct st.
      * rewrite Hsum. simpl. lia.
    + change (its_of _) with (items es).
      pose proof (MI_unmap (Table ((hash P k, t) :: tpairs (sh_map s)) 0) (items es) _ t p HM Ht) as HU.
      assert (tpairs (tremove (Table ((hash P k, t) :: tpairs (sh_map s)) 0) t) = tpairs (sh_map s)) as <-; [|exact HU].
      assert (t ∉ (tpairs (sh_map s)).*2) as Hnm.
      { intros Hin. destruct (m_tok _ _ _ _ (i_map _ _ _ HI) Hin) as (e0 & He0 & _). by eapply Hn. }
      unfold tremove; simpl. rewrite filter_cons_False by (simpl; tauto). clear -Hnm.
      induction (tpairs (sh_map s)) as [|[h0 t0] m IH]; [done|]. apply not_elem_of_cons in Hnm as [Hne Hnm]. simpl in Hne.
      rewrite filter_cons_True by (simpl; congruence). by rewrite IH.
  - rewrite !sh_iter_kvs. change (its_of _) with (items es) at 1. by rewrite Hkv.
Qed.
Lemma tr_upsert s k : Inv s → tr (Qsame s) (c_upsert_placeholder s (hash P k) k).
Proof.
  intros HI. unfold c_upsert_placeholder. apply tr_bind; [apply tr_search; by apply Qsame_now|].
  intros o. rewrite er_search. destruct (search_spec LW s k HI) as (o' & -> & Ho). intros [= <-].
  destruct Ho as [t e k' Hm Ht He Hk|t Hm Ht Ha|Ha Hg].
  - trs. by apply Qsame_now.
  - trs. by apply Qsame_now.
  - apply tr_bind_pt; [intros _; by apply Qsame_now|]. cbv zeta. apply tr_bind_lift. intros [es i] E.
    apply tr_bind_lift. intros _ _. apply tr_bind; [|intros; trs]. apply tr_map_insert; [|done].
    intros _. by apply (unmapped_ph s k es i).
Qed.

Lemma no_ph_good s p : ph_at s (ph_idx p) = None → good_handle s p.
Proof. intros H q b. by rewrite H. Qed.
Lemma tr_fill s k s1 p rs v : Inv s → handle s k s1 p → find_key k (sh_iter s) = None →
  tr (λ q s', Qin s k v q s' ∧ good_handle s' p) (c_fill s1 rs p v).
Proof.
  intros HI [HI1 Hcfg Hit Hg (kp & Ho & Hkp) _ _ _ _] Hf. unfold c_fill.
  apply tr_bind_pt; [intros _; split; [by apply (Qin_same rs)|done]|].
  apply tr_bind; [|intros [[? ?] ?] _; trs].
  unfold owned in Ho. destruct (ph_at s1 (ph_idx p)) as [[q b]|] eqn:Hph; [|done].
  destruct (same_as (p_shared q) p) eqn:Hsa; [|done]. injection Ho as <-.
  destruct (Hg _ _ Hph Hsa) as [-> Hpq]. apply ph_at_Some in Hph as [Ht Hb].
  symmetry in Hb. apply bool_decide_eq_true in Hb as Hm.
  unfold c_replace_placeholder. destruct (get_live _ _ _ Ht) as (n & -> & _). rewrite Hsa. cbv zeta.
  apply tr_bind_pt; [done|].
  change (sh_target_hot (set_entry s1 (ph_idx p) (Ghost 0))) with (sh_target_hot s1).
  pose proof (admission_eq (sh_target_hot s1) (Lcs rs []) (p_key q) v) as Had. unfold admission_l in Had.
  destruct (admission (sh_target_hot s1) (lrs (Lcs rs [])) (p_key q) v) as [[[rs1 es0] v1] over] eqn:Hadm. rewrite Had. clear Had.
  apply adm_value in Hadm. set (l1 := Lcs rs1 _). destruct over.
  - destruct (over_ph_spec LW s1 l1 p q v1 (Ghost 0) HI1 Ht Hm Hpq) as (s' & E & HI' & Hi' & Hm' & Hst').
    rewrite <-er_over2 in E. apply tr_bind; [|intros [? ?] _; trs].
    eapply (fin_tr (λ a, a.1)); [unfold c_handle_overweight_replace_placeholder; fins|].
    intros a q' Ea Hc. rewrite E in Ea. injection Ea as <-. simpl.
    destruct (cfg_static _ _ Hst') as [Hc' _]. split.
    + apply (Qin_same rs); [done|congruence|]. rewrite <-Hit, !sh_iter_kvs, Hi'. by rewrite (kvs_same _ _ _ _ Ht).
    + apply no_ph_good. unfold ph_at. by rewrite Hi', list_lookup_insert by (by eapply lookup_lt_Some).
  - apply tr_bind_lift. intros a E0. apply tr_bind_lift. intros a' E0'. apply tr_bind_lift. intros s2 E1.
    rewrite set_entry_twice in E1.
    change (sh_capacity (set_entry s1 (ph_idx p) (Ghost 0))) with (sh_capacity s1) in *.
    set (st := if (_ <=? sh_capacity s1)%N then Hot else p_hot q) in *.
    destruct (negb _) eqn:Hz; [|trs]. apply tr_bind_lift. intros s3 E2.
    set (r' := Res (p_key q) v1 st 0).
    assert (enter (set_entry s1 (ph_idx p) (Resident r')) st (ph_idx p) (weight P (p_key q) v1) = Ok s3) as Er.
    { unfold enter, r'. rewrite E1. cbn [rbind]. rewrite Hz. exact E2. }
    destruct (N.ltb_spec (a_weight (sh_acct s1 st) + weight P (p_key q) v1) two64) as [HW|HW].
    2:{ rewrite enter_ovf in Er; [done|]. by destruct st. }
    destruct (enter_ph_spec LW s1 (ph_idx p) q r' HI1 Ht Hm (keqb_refl _ LW _) HW) as (s4 & Hen & HI4 & Hit4 & Hm4 & Hst4).
    change (r_state r') with st in Hen. change (rweight r') with (weight P (p_key q) v1) in Hen. rewrite Er in Hen. injection Hen as <-.
    destruct (cfg_static _ _ Hst4) as [Hc4 _].
    apply tr_bind; [|intros [? ?] _; trs].
    eapply tr_mono; [|by apply tr_evict]. intros p' s' _ HQ. split.
    + eapply Qin_ev; [| |exact HQ]; [congruence|].
      right. right. exists (p_key q), v1. split; [done|]. split; [done|]. rewrite (del_none _ _ Hf), <-Hit.
      rewrite !sh_iter_kvs, Hit4. etrans; [by apply (kvs_insert _ _ _ _ Ht)|]. simpl. f_equiv.
      by rewrite (kvs_same _ _ _ None Ht).
    + destruct HQ as (_ & HI' & l' & Hev). apply no_ph_good. rewrite (ev_ph _ _ _ _ _ Hev).
      unfold ph_at. by rewrite Hit4, list_lookup_insert by (by eapply lookup_lt_Some).
Qed.
Lemma tr_unwinding {A} s k v p (m : M A) : tr (λ q s', Qin s k v q s' ∧ good_handle s' p) m → tr (Qin s k v) (unwinding p m).
Proof.
  intros H q s'. unfold unwinding. simpl. rewrite elem_of_list_omap. intros ([q0 s0] & Hin & E) Hh.
  destruct (remove_placeholder s0 p) as [s1|] eqn:Er; [|done]. injection E as -> ->.
  destruct (H _ _ Hin Hh) as [(A1 & A2 & A3) Hg].
  destruct (remove_placeholder_spec LW s0 p A1 Hg) as (s2 & E2 & HI & Hi & Hst & _).
  rewrite Er in E2. injection E2 as <-. destruct (cfg_static _ _ Hst) as [Hc _].
  split; [done|]. split; [congruence|]. by rewrite Hi.
Qed.

(* ---- the final contents are partway too ---- *)
Lemma evicts_frame x rs c es rs' c' : evicts (P:=P) rs c es rs' c' → evicts rs (x :: c) es rs' (x :: c').
Proof.
  induction 1 as [|rs c k v rest rs1 v' es rs' c' Hc Hp Hw Hb Hw' _ IH|rs c k v rest rs1 v' es rs' c' Hc Hp Hw Hb Hw' _ IH].
  - constructor. by f_equiv.
  - eapply (ev_keep _ _ _ k v (x :: rest)); [|done|done|done|done|].
    + rewrite Hc. by apply Permutation_swap.
    + eapply evicts_perm_l; [|exact IH]. apply Permutation_swap.
  - eapply (ev_drop _ _ _ k v (x :: rest)); [|done|done|done|done|done].
    rewrite Hc. by apply Permutation_swap.
Qed.
Lemma inserts_part cap budget cr rs c k v es rs' c' o : inserts cap budget cr rs c k v es rs' c' o → partway c k v c'.
Proof.
  intros H. inversion H as [rs1 es1 v1 c1 Ha Hf Hc|rs1 es1 v1 ko vo c1 Ha Hf Hc|rs1 es1 v1 c1 Ha Hf Hcr Hc|rs1 es1 v1 ko vo es2 rs2 c1 Ha Hf He|
    rs1 es1 v1 es2 rs2 c1 c2 Ha Hf Hcr He Hw Hn Hc|rs1 es1 v1 es2 rs2 c1 Ha Hf Hcr He]; subst; pose proof (adm_value _ _ _ _ _ _ _ _ Ha).
  - apply (start_now rs). by left.
  - apply (start_now rs). right. by left.
  - apply (start_now rs). by left.
  - eapply start_part; [|exact He]. right. right. exists k, v1. split; [apply (keqb_refl _ LW)|]. done.
  - eapply evicts_frame in He. eapply start_part; [|eapply evicts_perm_r; [exact He|by symmetry]].
    right. right. exists k, v1. split; [apply (keqb_refl _ LW)|]. split; [done|]. by rewrite (del_none _ _ Hf).
  - eapply start_part; [|exact He]. right. right. exists k, v1. split; [apply (keqb_refl _ LW)|]. split; [done|]. by rewrite (del_none _ _ Hf).
Qed.
Lemma loads_part cap budget rs c k kp v es rs' c' :
  keqb P k kp = true → find_key k c = None → loads cap budget rs c kp v es rs' c' → partway c k v c'.
Proof.
  intros Hk Hf H. inversion H as [rs1 es1 v1 c1 Ha Hc|rs1 es1 v1 c1 Ha Hw Hc|rs1 es1 v1 es2 rs2 c1 Ha Hw He]; subst; pose proof (adm_value _ _ _ _ _ _ _ _ Ha).
  - apply (start_now rs). by left.
  - apply (start_now rs). right. right. exists kp, v1. split; [done|]. split; [done|]. by rewrite (del_none _ _ Hf).
  - eapply start_part; [|exact He]. right. right. exists kp, v1. split; [done|]. split; [done|]. by rewrite (del_none _ _ Hf).
Qed.
Lemma fill_done s k s1 p rs v s' l' : Inv s → handle s k s1 p → find_key k (sh_iter s) = None →
  (c_fill s1 rs p v).2 = Ok (s', l') → Inv s' ∧ cfg s' = cfg s ∧ partway (sh_iter s) k v (sh_iter s').
Proof.
  intros HI Hh Hf E.
  pose proof (er_fill s1 rs p v false RUnit false (λ '(s, l), lift (Ok (s, finished rs l false RUnit false))) ltac:(done)) as Er.
  unfold er, mbind in Er. rewrite E in Er. simpl in Er.
  pose proof (u_fill_spec LW (λ _, True) s rs k s1 p v false RUnit false HI Hh ltac:(done)) as H. rewrite <-Er in H. simpl in H.
  destruct H as (HI' & Hc & _ & (kp & es & rs' & Hkp & Hld & _) & _). split_and!; [done|done|]. by eapply loads_part.
Qed.

(* ---- every call ---- *)
Definition Qx s (m : cmd P) : point → shard → Prop := λ p s', Inv s' ∧ cfg s' = cfg s ∧
  if calm p then sh_iter s' ≡ₚ sh_iter s else
  match written m with Some (k, v) => partway (sh_iter s) k v (sh_iter s') | None => sh_iter s' ≡ₚ sh_iter s end.
Lemma written_state (m : cmd P) k v : written m = Some (k, v) → ∃ rs : RS, True.
Proof. destruct m; try discriminate; intros _; by eexists. Qed.
Lemma Qx_same s m p s' : Qsame s p s' → Qx s m p s'.
Proof.
  intros (A & C & D). split; [done|]. split; [done|]. destruct (calm p); [done|].
  destruct (written m) as [[k v]|] eqn:Hw; [|done]. destruct (written_state _ _ _ Hw) as [rs _]. apply (start_now rs). by left.
Qed.
Lemma Qx_quiet s m p s' : quiet s s' → Qx s m p s'.
Proof. intros [A C D _ _ _ _]. apply Qx_same. split_and!; [done|done|by rewrite C]. Qed.
Lemma Qx_done s k v p s' : calm p = false → Inv s' → cfg s' = cfg s → partway (sh_iter s) k v (sh_iter s') → Qin s k v p s'.
Proof. intros Hc A C D. split; [done|]. split; [done|]. by rewrite Hc. Qed.
Lemma tr_use_guard s k s1 p rs g : Inv s → handle s k s1 p → find_key k (sh_iter s) = None →
  match g with
  | GInsert v _ => tr (Qin s k v) (c_use_guard s1 rs p g)
  | _ => ∀ Q, tr Q (c_use_guard s1 rs p g)
  end.
Proof.
  intros HI Hh Hf. destruct g as [v wl| |]; simpl; [|intros; trs..].
  apply tr_bind; [by apply tr_unwinding, tr_fill|]. intros [s' l'] E. simpl in E.
  destruct (fill_done _ _ _ _ _ _ _ _ HI Hh Hf E) as (A & C & D). apply tr_end. intros _. by apply Qx_done.
Qed.
Lemma upsert_step s k s1 r : Inv s → (c_upsert_placeholder s (hash P k) k).2 = Ok (s1, r) → upserted s k s1 r.
Proof.
  intros HI. rewrite er_upsert. intros E. pose proof (upsert_spec LW (λ _, True) s k HI ltac:(done)) as H. by rewrite E in H.
Qed.
Lemma tr_get_mut s k : Inv s → tr (Qsame s) (c_get_mut s (hash P k) k).
Proof.
  intros HI. unfold c_get_mut. apply tr_bind; [apply tr_search_resident; by apply Qsame_now|].
  intros o. rewrite er_search_resident. destruct (search_resident_spec LW s k HI) as (o' & -> & Ho). intros [= <-].
  destruct o' as [[t r]|]; [|trs]. destruct Ho as (Ht & Hk & Hf). apply tr_bind_lift. intros e. rewrite (entry_at_ok _ _ _ Ht).
  intros [= <-]. cbv zeta. apply tr_bind_pt; [|trs]. intros _.
  destruct (quiet_bump LW s t r HI Ht) as ([A C D _ _ _ _] & _ & _). split_and!; [exact A|exact D|]. by rewrite <-C.
Qed.

Lemma tr_exec s m : Inv s → tr (Qx s m) (c_exec s m).
Proof.
  intros HI. pose proof (λ p, Qx_same s m p s (Qsame_now s p HI)) as Hnow.
  assert (∀ A (x : M A), tr (Qsame s) x → tr (Qx s m) x) as Hsame.
  { intros A x. apply tr_mono. intros p s' _. by apply Qx_same. }
  destruct m as [k|k|k|k f|k f|k|rs k v soft wl|rs k v wl|f| | | |rs k w|rs k w f|rs k g|rs k f g]; cbn [c_exec].
  - unfold c_contains. apply tr_bind_pt; [done|]. apply tr_assoc. trs. done.
  - unfold c_get. apply tr_bind_pt; [done|]. apply tr_assoc. trs. done.
  - unfold c_peek. apply tr_bind_pt; [done|]. apply tr_assoc. trs. done.
  - apply tr_bind_pt; [done|]. apply tr_bind; [by apply Hsame, tr_get_mut|]. intros [s1 o] _.
    apply tr_bind; [apply tr_use_refmut|]. intros [? ?] _. trs.
  - apply tr_bind_pt; [done|]. apply tr_bind.
    + unfold c_peek_mut. apply tr_bind; [by apply tr_search_resident|]. intros [[t r]|] _; [|trs]. by apply tr_peek_token.
    + intros o _. apply tr_bind; [apply tr_use_refmut|]. intros [? ?] _. trs.
  - apply tr_bind_pt; [done|]. unfold c_remove. apply tr_assoc, tr_bind; [by apply tr_search|]. intros [t|] _; [|trs].
    apply tr_bind; [apply tr_remove_internal|]. intros [? ?] _. trs.
  - unfold c_u_replace. do 2 (apply tr_bind_pt; [done|]). apply tr_bind; [eapply tr_mono; [|by apply tr_insert]; by intros p s' _ [? _]|]. intros [[s' l'] o].
    rewrite er_insert. intros E. destruct o as [kv|]; [trs|].
    pose proof (sh_insert_spec LW (λ _, True) s (Lcs rs []) k v (Replace soft) HI ltac:(done) ltac:(done)) as H.
    rewrite E in H. destruct H as (HI' & Hst & (es & Hl & Hin) & _). destruct (cfg_static _ _ Hst) as [Hc _].
    apply tr_end. intros _. apply Qx_done; [done|done|done|]. by eapply inserts_part.
  - unfold c_u_insert. do 2 (apply tr_bind_pt; [done|]). apply tr_bind; [eapply tr_mono; [|by apply tr_insert]; by intros p s' _ [? _]|]. intros [[s' l'] o].
    rewrite er_insert. intros E. apply tr_bind_lift. intros _ _.
    pose proof (sh_insert_spec LW (λ _, True) s (Lcs rs []) k v Insert HI ltac:(done) ltac:(done)) as H.
    rewrite E in H. destruct H as (HI' & Hst & (es & Hl & Hin) & _). destruct (cfg_static _ _ Hst) as [Hc _].
    apply tr_end. intros _. apply Qx_done; [done|done|done|]. by eapply inserts_part.
  - unfold c_retain. apply tr_assoc, tr_bind_pt; [done|]. apply tr_bind; [apply tr_retain_remove|]. intros. trs.
  - trs.
  - destruct (sh_drain s). trs.
  - unfold c_reserve. apply tr_assoc, tr_bind; [apply tr_grow; [done|done]|]. intros. trs.
  - unfold c_u_get_or_insert. apply tr_bind_pt; [done|]. apply tr_bind; [by apply Hsame, tr_upsert|].
    intros [s1 [[t v0]|[p b]]] E; [trs|]. apply upsert_step in E; [|done].
    destruct (upserted_handle LW _ _ _ _ _ HI E) as [Hf Hh].
    assert (∀ q, Qx s (CGetOrInsert rs k w) q s1) as Hnow1.
    { intros q. apply Qx_same. destruct Hh as [A C D _ _ _ _ _ _]. by split_and!. }
    apply tr_bind_pt; [done|]. destruct w as [v|]; [|trs].
    apply tr_bind; [eapply tr_mono; [|by apply (tr_fill s k s1 p rs v)]; by intros q s' _ [? _]|].
    intros [s' l'] E'. destruct (fill_done _ _ _ _ _ _ _ _ HI Hh Hf E') as (A & C & D). apply tr_end. intros _. by apply Qx_done.
  - unfold c_u_get_mut_or_insert. apply tr_bind_pt; [done|]. apply tr_bind; [by apply Hsame, tr_upsert|].
    intros [s1 [[t v0]|[p b]]] E.
    + apply upsert_step in E; [|done]. inversion E as [t' ko vo r Hf Hq Hst Ht Hk Hv| |]; subst.
      apply tr_bind; [apply tr_peek_token; by apply Qx_quiet|]. intros o _.
      apply tr_bind; [apply tr_use_refmut|]. intros [? ?] _. trs.
    + apply upsert_step in E; [|done].
      destruct (upserted_handle LW _ _ _ _ _ HI E) as [Hf Hh].
      assert (∀ q, Qx s (CGetMutOrInsert rs k w f) q s1) as Hnow1.
      { intros q. apply Qx_same. destruct Hh as [A C D _ _ _ _ _ _]. by split_and!. }
      apply tr_bind_pt; [done|]. destruct w as [v|]; [|trs].
      apply tr_bind; [eapply tr_mono; [|by apply (tr_fill s k s1 p rs v)]; by intros q s' _ [? _]|].
      intros [s' l'] E'. destruct (fill_done _ _ _ _ _ _ _ _ HI Hh Hf E') as (A & C & D).
      apply tr_bind; [apply tr_end; intros _; by apply Qx_done|]. intros _ _.
      apply tr_bind; [apply tr_peek_token; by apply Qx_done|]. intros o _.
      apply tr_bind; [apply tr_use_refmut|]. intros [? ?] _. trs.
  - unfold c_u_ref_or_guard. apply tr_bind_pt; [done|]. apply tr_bind; [by apply Hsame, tr_upsert|].
    intros [s1 [[t v0]|[p b]]] E; [trs|]. apply upsert_step in E; [|done].
    destruct (upserted_handle LW _ _ _ _ _ HI E) as [Hf Hh].
    pose proof (tr_use_guard s k s1 p rs g HI Hh Hf) as H. destruct g as [v wl| |]; [exact H|apply H|apply H].
  - unfold c_u_mut_or_guard. apply tr_bind_pt; [done|]. apply tr_bind; [by apply Hsame, tr_upsert|].
    intros [s1 [[t v0]|[p b]]] E.
    + apply upsert_step in E; [|done]. inversion E as [t' ko vo r Hf Hq Hst Ht Hk Hv| |]; subst.
      apply tr_bind; [apply tr_peek_token; by apply Qx_quiet|]. intros o _.
      apply tr_bind; [apply tr_use_refmut|]. intros [? ?] _. trs.
    + apply upsert_step in E; [|done]. destruct (upserted_handle LW _ _ _ _ _ HI E) as [Hf Hh].
      pose proof (tr_use_guard s k s1 p rs g HI Hh Hf) as H. destruct g as [v wl| |]; [exact H|apply H|apply H].
Qed.
End crashproofs.
