(* Proofs for Scan.v: while hot items fit, what is evicted are cold items nobody read. *)
From Verif Require Export Scan SeqProofs MentionProofs.

Section scanproofs.
Context {P : Params} (LW : Lawful P).
Notation K := (K P). Notation V := (V P).
Notation entry := (entry P). Notation shard := (shard P). Notation resident := (resident P).
Implicit Types (s : shard) (l : lcs P) (e : entry) (r : resident) (its : list (option entry)) (k : K) (v : V) (t : nat).

(* ---- what slab operations do to the items ---- *)
Lemma its_unlink (es es' : slab entry) i o : slab_unlink es i = Ok (es', o) → items es' = items es.
Proof. apply MentionProofs.items_unlink. Qed.
Lemma its_links (es : slab entry) i x p n : at_ es i = Ok x → items (Slab.upd es i (set_links x p n)) = items es.
Proof. apply MentionProofs.items_links. Qed.
Lemma its_link (es es' : slab entry) i h o : slab_link es i h = Ok (es', o) → items es' = items es.
Proof.
  unfold slab_link. intros H.
  destruct (match h with Some th => _ | None => _ end) as [[[s1 p] n]|] eqn:E; cbn [rbind] in H; [|done].
  assert (items s1 = items es) as <-.
  { destruct h as [th|]; [|by simplify_eq]. destruct (at_ es th) as [x|] eqn:E1; cbn [rbind] in E; [|done].
    destruct (assert _); cbn [rbind] in E; [|done]. destruct (bool_decide _); [simplify_eq; by apply its_links|].
    destruct (at_ _ (prv x)) as [y|] eqn:E2; cbn [rbind] in E; [|done].
    destruct (assert _); cbn [rbind] in E; [|done]. destruct (assert _); cbn [rbind] in E; [|done]. simplify_eq.
    by rewrite (its_links _ _ _ _ _ E2), (its_links _ _ _ _ _ E1). }
  destruct (at_ s1 i) as [x|] eqn:E1; cbn [rbind] in H; [|done].
  do 3 (destruct (assert _); cbn [rbind] in H; [|done]). simplify_eq. by apply its_links.
Qed.
Lemma its_remove (es es' : slab entry) i o : slab_remove es i = Ok (es', Some o) → items es' = <[i := None]> (items es).
Proof.
  unfold slab_remove. destruct (slab_unlink es i) as [[es1 n]|] eqn:E; cbn [rbind]; [|done]. apply its_unlink in E as <-.
  destruct (at_ es1 i) as [x|]; cbn [rbind]; [|done]. destruct (item x); [|done]. intros [= <- _]. unfold items. simpl. by rewrite list_fmap_insert.
Qed.
Lemma its_map_remove s h i s' : map_remove s h i = Ok s' → its_of s' = its_of s.
Proof.
  unfold map_remove. intros H. repeat match type of H with rbind ?m _ = _ => destruct m; cbn [rbind] in H; [|done] | context [match ?x with _ => _ end] => destruct x end; by simplify_eq.
Qed.
Lemma its_advance_ghost s s' : advance_ghost s = Ok s' →
  ∃ g h, its_of s !! g = Some (Some (Ghost h)) ∧ its_of s' = <[g := None]> (its_of s).
Proof.
  unfold advance_ghost. intros H. destruct (assert _); cbn [rbind] in H; [|done]. destruct (sh_ghost_head s) as [g|]; cbn [unwrap rbind] in H; [|done].
  unfold entry_at in H. destruct (slab_get (sh_ents s) g) as [[e n]|] eqn:E; cbn [unwrap rbind] in H; [|done]. apply get_items in E as [E _].
  destruct e as [|p|h]; try done. exists g, h. split; [exact E|].
  unfold dec_nnr in H. destruct (wsub _ _); cbn [rbind] in H; [|done].
  match type of H with context [map_remove ?x] => set (s1 := x) in * end.
  destruct (map_remove s1 h g) as [s2|] eqn:E2; cbn [rbind] in H; [|done]. apply its_map_remove in E2.
  destruct (slab_remove (sh_ents s2) g) as [[es [[e' n']|]]|] eqn:E3; cbn [unwrap rbind] in H; try done. apply its_remove in E3. simplify_eq.
  unfold its_of in *. simpl. by rewrite E3, E2.
Qed.

(* ---- what an eviction of a cold item does to the others ---- *)
Record calm its its' : Prop := {
  cm_hot : ∀ t r, its !! t = Some (Some (Resident r)) → r_state r = Hot → its' !! t = Some (Some (Resident r));
  cm_old : ∀ t r, its' !! t = Some (Some (Resident r)) → r_state r = Hot ∨ rweight r ≠ 0%N → its !! t = Some (Some (Resident r));
}.
Lemma calm_refl its : calm its its. Proof. by split. Qed.
Lemma calm_trans its1 its2 its3 : calm its1 its2 → calm its2 its3 → calm its1 its3.
Proof. intros [A1 A2] [B1 B2]. split; eauto. Qed.
Lemma calm_insert its t o r : its !! t = Some (Some (Resident r)) → r_state r = Cold →
  (∀ r', o = Some (Resident r') → r_state r' = Cold ∧ rweight r' = 0%N) → calm its (<[t := o]> its).
Proof.
  intros Ht Hs Ho. split.
  - intros t' r' Ht' Hs'. rewrite list_lookup_insert_ne; [done|]. intros ->. congruence.
  - intros t' r' Ht' Hor. apply list_lookup_insert_Some in Ht' as [(<- & -> & _)|(_ & Ht')]; [|done].
    destruct (Ho _ eq_refl) as [E1 E2]. rewrite E1, E2 in Hor. by destruct Hor.
Qed.
Lemma calm_ghost its t h : its !! t = Some (Some (Ghost h)) → calm its (<[t := None]> its).
Proof.
  intros Ht. split.
  - intros t' r' Ht' Hs'. rewrite list_lookup_insert_ne; [done|]. intros ->. congruence.
  - intros t' r' Ht' Hor. apply list_lookup_insert_Some in Ht' as [(<- & ? & _)|(_ & Ht')]; done.
Qed.
Lemma its_set s t e : t < length (its_of s) → its_of (set_entry s t e) = <[t := Some e]> (its_of s).
Proof.
  intros Ht. unfold its_of, items in *. rewrite fmap_length in Ht. apply lookup_lt_is_Some_2 in Ht as [x Hx]. unfold set_entry, slab_set, set_ents. simpl. rewrite Hx.
  unfold Slab.upd. simpl. by rewrite list_fmap_insert.
Qed.
Lemma calm_cold_evict s l t r s' l' b : its_of s !! t = Some (Some (Resident r)) → r_state r = Cold →
  cold_evict s l t r = Ok (s', l', b) → calm (its_of s) (its_of s').
Proof.
  intros Ht Hs. assert (t < length (its_of s)) as Hlt by by eapply lookup_lt_Some.
  unfold cold_evict. destruct (sub_weight s Cold (rweight r)) as [s0|] eqn:E0; cbn [rbind]; [|done].
  assert (its_of s0 = its_of s) as I0. { unfold sub_weight in E0. destruct (wsub _ _); cbn [rbind] in E0; [|done]. by simplify_eq. }
  destruct (call_before l (r_key r) (r_val r)) as [l1 v'] eqn:Eb. rewrite <-I0 in Hlt.
  set (r' := set_rval r v'). cbv zeta. destruct (N.eqb_spec (rweight r') 0) as [Hz|Hz].
  - destruct (slab_unlink _ t) as [[es h]|] eqn:Eu; cbn [rbind]; [|done]. intros [= <- _ _]. apply its_unlink in Eu.
    match goal with |- calm _ (its_of ?x) => assert (its_of x = <[t := Some (Resident r')]> (its_of s)) as -> end.
    { transitivity (items es); [done|]. rewrite Eu. etrans; [by apply its_set|]. by rewrite I0. }
    eapply calm_insert; [done..|]. intros r2 [= <-]. split; [exact Hs|done].
  - destruct (slab_unlink _ t) as [[es h]|] eqn:Eu; cbn [rbind]; [|done]. apply its_unlink in Eu.
    destruct (slab_link _ t _) as [[es2 h2]|] eqn:El; cbn [rbind]; [|done]. apply its_link in El.
    match goal with |- (let! s := dec_num ?x Cold in _) = _ → _ => set (s1 := x) end.
    destruct (dec_num s1 Cold) as [s2|] eqn:E2; cbn [rbind]; [|done].
    assert (its_of s2 = <[t := Some (Ghost (hash P (r_key r')))]> (its_of s)) as I2.
    { transitivity (its_of s1). { unfold dec_num in E2. destruct (wsub _ _); cbn [rbind] in E2; [|done]. by simplify_eq. }
      transitivity (items es2); [done|]. rewrite El. transitivity (items es); [done|]. rewrite Eu.
      etrans; [apply its_set|]. { rewrite its_set by done. by rewrite insert_length. }
      rewrite its_set by done. by rewrite list_insert_insert, I0. }
    destruct (_ <? _)%N.
    + destruct (advance_ghost _) as [s3|] eqn:E3; cbn [rbind]; [|done]. intros [= <- _ _].
      apply its_advance_ghost in E3 as (g & hg & Hg & ->). change (its_of (set_nnr s2 (sh_nnr s2 + 1))) with (its_of s2) in *.
      eapply calm_trans; [|by eapply calm_ghost]. rewrite I2. by eapply calm_insert.
    + cbn [rbind]. intros [= <- _ _]. change (its_of (set_nnr s2 (sh_nnr s2 + 1))) with (its_of s2). rewrite I2. by eapply calm_insert.
Qed.

(* cold items were not read, are not pinned, and are among the keys ks *)
Definition coldok (ks : list K) its : Prop := ∀ t r, its !! t = Some (Some (Resident r)) → r_state r = Cold → rweight r ≠ 0%N →
  r_ref r = 0%N ∧ rpinned r = false ∧ r_key r ∈ ks.
Lemma calm_coldok ks its its' : calm its its' → coldok ks its → coldok ks its'.
Proof. intros [A B] H t r Ht Hs Hw. apply (H t r); [|done|done]. apply B; eauto. Qed.
Lemma esum_ext (f : entry → N) its its' : length its = length its' →
  (∀ t o o', its !! t = Some o → its' !! t = Some o' → oget f o = oget f o') → esum f its = esum f its'.
Proof.
  revert its'. induction its as [|o its IH]; intros [|o' its'] E H; try done. injection E as E.
  change (oget f o + esum f its = oget f o' + esum f its')%N. rewrite (H 0 o o' eq_refl eq_refl). f_equal.
  apply IH; [done|]. intros t. apply (H (S t)).
Qed.
Lemma calm_hotw its its' : length its = length its' → calm its its' → esum (wof Hot) its = esum (wof Hot) its'.
Proof.
  intros E [A B]. apply esum_ext; [done|]. intros t o o' Ho Ho'.
  assert (∀ oo r, oo = Some (Resident r) → r_state r = Hot ∨ oget (wof Hot) oo = 0%N) as Hc.
  { intros oo r ->. simpl. destruct (r_state r); [by left|right]. by rewrite decide_False. }
  assert (∀ oo, (∃ r, oo = Some (Resident r) ∧ r_state r = Hot) ∨ oget (wof Hot) oo = 0%N) as Hd.
  { intros [[r| |]|]; simpl; eauto. destruct (r_state r) eqn:Es; [left; eauto|right]. by rewrite decide_False. }
  destruct (Hd o) as [(r & -> & Hs)|H1].
  - rewrite (A _ _ Ho Hs) in Ho'. by simplify_eq.
  - destruct (Hd o') as [(r & -> & Hs)|H2]; [|congruence]. rewrite (B _ _ Ho' (or_introl Hs)) in Ho. by simplify_eq.
Qed.
Lemma hotw s : Inv s → a_weight (sh_hot s) = esum (wof Hot) (its_of s).
Proof. intros (rs & fl & HI). apply (acc_w _ _ (i_acc _ _ _ HI) Hot). Qed.
Lemma coldw s : Inv s → a_weight (sh_cold s) = esum (wof Cold) (its_of s).
Proof. intros (rs & fl & HI). apply (acc_w _ _ (i_acc _ _ _ HI) Cold). Qed.
Lemma static_fields s s' : static s' = static s → sh_target_hot s' = sh_target_hot s ∧ sh_capacity s' = sh_capacity s ∧ sh_cap_nr s' = sh_cap_nr s.
Proof. unfold static. by intros [= -> -> ->]. Qed.

Lemma evict_loop_calm ks fuel : ∀ s l extra s' l', Inv s → coldok ks (its_of s) → (a_weight (sh_hot s) + extra ≤ sh_capacity s)%N →
  evict_loop fuel s l extra = Ok (s', l') → Inv s' ∧ calm (its_of s) (its_of s') ∧ length (its_of s') = length (its_of s) ∧ ev_post s l s' l'.
Proof.
  induction fuel as [|fuel IH]; intros s l extra s' l' HI HC Hle; cbn [evict_loop]; [done|].
  destruct (wadd (a_weight (sh_hot s)) _) as [a|] eqn:Ea; cbn [rbind]; [|done]. destruct (wadd a extra) as [a2|] eqn:Ea2; cbn [rbind]; [|done].
  unfold wadd in Ea, Ea2. destruct (N.ltb_spec (a_weight (sh_hot s) + a_weight (sh_cold s)) two64); [|done]. injection Ea as <-.
  destruct (N.ltb_spec (a_weight (sh_hot s) + a_weight (sh_cold s) + extra) two64); [|done]. injection Ea2 as <-.
  destruct (N.ltb_spec (sh_capacity s) (a_weight (sh_hot s) + a_weight (sh_cold s) + extra)) as [Hlt|Hge].
  2:{ intros [= <- <-]. split_and!; [done|apply calm_refl|done|apply ev_refl]. }
  assert (∃ s1 l1, advance_cold s l = Ok (s1, l1, true) ∧ Inv s1 ∧ calm (its_of s) (its_of s1) ∧ length (its_of s1) = length (its_of s) ∧ ev_post s l s1 l1) as (s1 & l1 & -> & HI1 & Hc1 & Hlen & Hev).
  { rewrite (coldw s HI) in *. destruct (esum_pos (wof Cold) (its_of s)) as (t0 & e0 & Ht0 & Hw0); [lia|].
    assert (∃ r0, e0 = Resident r0 ∧ r_state r0 = Cold ∧ rweight r0 ≠ 0%N) as (r0 & -> & Hs0 & Hw0').
    { destruct e0 as [r0| |]; simpl in Hw0; try done. exists r0. case_decide; [done|lia]. }
    destruct HI as (rs & fl & HI). unfold advance_cold. pose proof (i_heads _ _ _ HI RCold) as Hh. simpl in Hh. rewrite Hh.
    pose proof (inv_ring _ _ _ _ _ HI Ht0 Hw0') as Hin. rewrite Hs0 in Hin. simpl in Hin.
    destruct (rs RCold) as [|idx B] eqn:HAB; [by apply elem_of_nil in Hin|]. cbn [head].
    destruct (inv_ring_cold _ _ _ idx HI) as (r & Ht & Hs & Hw); [rewrite HAB; left|].
    destruct (HC _ _ Ht Hs Hw) as (Hr & Hp & _).
    rewrite Nat.add_1_r. cbn [advance_cold_loop]. destruct (get_live _ _ _ Ht) as (n & -> & _). cbn [unwrap rbind].
    rewrite bool_decide_true by done. cbn [assert rbind]. rewrite Hr. cbn [N.eqb negb]. rewrite Hp.
    destruct (cold_evict_spec LW s l rs fl idx r [] B HI HAB Ht Hp) as (s1 & l1 & E & H1 & H2 & _).
    exists s1, l1. split; [done|]. split; [done|]. split; [by eapply calm_cold_evict|]. split; [apply H2|done]. }
  cbn [rbind]. intros Hrun.
  destruct (static_fields _ _ (ep_static _ _ _ _ Hev)) as (_ & Hcap & _).
  destruct (IH s1 l1 extra s' l' HI1) as (A1 & A2 & A3 & A4); [by eapply calm_coldok| |done|].
  { rewrite (hotw _ HI1), <-(calm_hotw _ _ (eq_sym Hlen) Hc1), <-(hotw _ HI), Hcap. done. }
  split_and!; [done|by eapply calm_trans|congruence|by eapply ev_trans].
Qed.
Lemma evict_calm ks s l extra s' l' : Inv s → coldok ks (its_of s) → (a_weight (sh_hot s) + extra ≤ sh_capacity s)%N →
  evict_until s l extra = Ok (s', l') → Inv s' ∧ calm (its_of s) (its_of s') ∧ a_weight (sh_hot s') = a_weight (sh_hot s) ∧ ev_post s l s' l'.
Proof.
  intros HI HC Hle H. destruct (evict_loop_calm ks _ _ _ _ _ _ HI HC Hle H) as (A1 & A2 & A3 & A4).
  split_and!; try done. rewrite !hotw by done. by rewrite (calm_hotw _ _ (eq_sym A3) A2).
Qed.

(* ---- lookups ---- *)
Lemma untracked_search s k : Inv s → untracked s k → search s (hash P k) k = Ok None ∧ absent s k.
Proof.
  intros HI Hu. destruct (search_spec LW s k HI) as (o & E & Ho). rewrite E.
  destruct Ho as [t e k' Hm Ht He Hk|t Hm Ht Ha|Ha Hg]; [| |done].
  - destruct (Hu t). rewrite <-(ekey_hash LW e k' k) by done. destruct HI as (rs & fl & HI).
    destruct (m_tok _ _ _ _ (i_map _ _ _ HI) Hm) as (e' & He' & Hin). rewrite Ht in He'. by injection He' as <-.
  - destruct (Hu t). destruct HI as (rs & fl & HI).
    destruct (m_tok _ _ _ _ (i_map _ _ _ HI) Hm) as (e' & He' & Hin). rewrite Ht in He'. by injection He' as <-.
Qed.
Lemma hit_search s k : Inv s → find_key k (sh_iter s) ≠ None → ∃ t r, search s (hash P k) k = Ok (Some t) ∧
  its_of s !! t = Some (Some (Resident r)) ∧ keqb P k (r_key r) = true.
Proof.
  intros HI Hf. destruct (search_spec LW s k HI) as (o & E & Ho). rewrite E.
  destruct Ho as [t e k' Hm Ht He Hk|t Hm Ht Ha|Ha Hg]; [|by rewrite (absent_find _ _ HI Ha) in Hf..].
  destruct e as [r|p|h]; simpl in He; [|exfalso|done].
  - injection He as <-. eauto.
  - apply Hf. eapply (absent_reskey LW s k t); [done|done|exact Ht|done| |done]. intros k2 [= <-]. by injection He as ->.
Qed.
Lemma res_uniq s k t1 r1 t2 r2 : Inv s → its_of s !! t1 = Some (Some (Resident r1)) → its_of s !! t2 = Some (Some (Resident r2)) →
  keqb P k (r_key r1) = true → keqb P k (r_key r2) = true → t1 = t2.
Proof.
  intros HI H1 H2 K1 K2. pose proof (res_mapped _ _ _ HI H1) as M1. pose proof (res_mapped _ _ _ HI H2) as M2.
  destruct HI as (rs & fl & HI). eapply (m_uniq _ _ _ (i_map _ _ _ HI) t1 t2 _ _ _ _ M1 M2 H1 H2); [done|done|].
  eapply (keqb_trans _ LW); [by apply (keqb_sym _ LW)|done].
Qed.

(* ---- a new item is inserted ---- *)
Lemma insert_absent ks s l k v s' l' o : Inv s → coldok ks (its_of s) → search s (hash P k) k = Ok None → absent s k →
  sh_insert s l (hash P k) k v Insert = Ok (s', l', o) →
  let '(rs1, es, v1, over) := admission (sh_target_hot s) (lrs l) k v in
  if over then its_of s' = its_of s ∧ Inv s'
  else (a_weight (sh_hot s) + weight P k v1 ≤ sh_capacity s)%N → ∃ s1 t,
    Inv s1 ∧ calm (its_of s) (its_of s1) ∧ a_weight (sh_hot s1) = a_weight (sh_hot s) ∧
    ((wsum (sh_iter s) + weight P k v1 ≤ sh_capacity s)%N → s1 = s) ∧ Inv s' ∧
    added (its_of s1) (its_of s') t (Resident (Res k v1 (if (a_weight (sh_hot s) + weight P k v1 <=? sh_target_hot s)%N then Hot else Cold) 0)).
Proof.
  intros HI HC Hs Ha. unfold sh_insert.
  pose proof (admission_eq (sh_target_hot s) l k v) as Had. unfold admission_l in Had.
  destruct (admission (sh_target_hot s) (lrs l) k v) as [[[rs1 es0] v1] over] eqn:Hadm. rewrite Had. clear Had.
  set (l1 := Lcs rs1 (llog l ++ es0)). destruct over.
  - unfold handle_insert_overweight. destruct (search_resident_spec LW s k HI) as ([[t r]|] & -> & Ho); cbn [rbind].
    + destruct Ho as (_ & _ & Hf). by rewrite (absent_find _ _ HI Ha) in Hf.
    + simpl. intros [= <- _ _]. done.
  - rewrite Hs. cbn [rbind is_replace]. unfold wadd at 1. destruct (N.ltb_spec (a_weight (sh_hot s) + weight P k v1) two64) as [HW|HW]; cbn [rbind]; [|done].
    cbv zeta. set (st := if (_ <=? sh_target_hot s)%N then Hot else Cold). intros H Hle.
    destruct (evict_until s l1 (weight P k v1)) as [[s1 l2]|] eqn:Ee; cbn [rbind] in H; [|done].
    destruct (evict_calm ks _ _ _ _ _ HI HC Hle Ee) as (HI1 & Hc1 & Hh1 & Hev).
    pose proof (new_entry_eq s1 l2 st k v1 (weight P k v1) (hash P k)) as Hne. cbv zeta in Hne. rewrite Hne in H. clear Hne.
    unfold new_entry in H. destruct (enter_new s1 st k v1 _ _) as [[s2 t]|] eqn:En; cbn [rbind] in H; [|done]. injection H as <- _ _.
    exists s1, t. assert (a_weight (sh_acct s1 st) + weight P k v1 < two64)%N as HW1.
    { unfold enter_new, add_weight, wadd in En. destruct (N.ltb_spec (a_weight (sh_acct (inc_num s1 st) st) + weight P k v1) two64) as [H|H]; [|done].
      by destruct st. }
    pose proof (enter_new_spec LW (λ _, True) s1 st k v1 HI1 (absent_ev _ _ _ _ _ HI HI1 Hev Ha) HW1 (λ _, I)) as Hsp. rewrite En in Hsp. simpl in Hsp.
    destruct Hsp as (HI2 & Hadd & _). split_and!; try done.
    intros Hfit. destruct (N.ltb_spec (wsum (sh_iter s) + weight P k v1) two64) as [HW2|HW2].
    + destruct (evict_until_spec LW s l1 _ HI HW2) as (s3 & l3 & E3 & _ & _ & _ & Hno). rewrite E3 in Ee. injection Ee as <- _. by apply Hno.
    + by rewrite (evict_until_ovf s l1 _ HI HW2) in Ee.
Qed.

(* ---- a new item is loaded ---- *)
Lemma load_absent ks s rs k v s' o : Inv s → coldok ks (its_of s) → search s (hash P k) k = Ok None → absent s k →
  u_get_or_insert s rs k (Some v) = Ok (s', o) → (a_weight (sh_hot s) ≤ sh_capacity s)%N →
  let '(rs1, es, v1, over) := admission (sh_target_hot s) rs k v in
  ∃ s1 t p, Inv s1 ∧ added (its_of s) (its_of s1) t (Placeholder p) ∧
  if over then its_of s' = <[t := None]> (its_of s1) ∧ Inv s'
  else (pinned P k v1 = false ∨ wsum (sh_iter s) + weight P k v1 ≤ sh_capacity s)%N → ∃ s2,
    Inv s2 ∧ its_of s2 = <[t := Some (Resident (Res k v1 (if (wsum (sh_iter s) + weight P k v1 <=? sh_capacity s)%N then Hot else Cold) 0))]> (its_of s1) ∧
    Inv s' ∧ calm (its_of s2) (its_of s') ∧ a_weight (sh_hot s') = a_weight (sh_hot s2) ∧
    ((wsum (sh_iter s) + weight P k v1 ≤ sh_capacity s)%N → its_of s' = its_of s2).
Proof.
  intros HI HC Hs Ha. unfold u_get_or_insert. rewrite (upsert_new _ _ Hs).
  destruct (new_ph s (hash P k) k) as [[s1 p]|] eqn:En; cbn [rbind]; [|done].
  pose proof (new_ph_spec LW (λ _, True) s k HI Ha (λ _, I)) as Hsp. rewrite En in Hsp. simpl in Hsp.
  destruct Hsp as (Hid & Hh & HI1 & Hadd & Hm & _ & Hcfg & _ & _).
  set (s1' := record_miss s1). assert (Inv s1') as HI1' by (by apply inv_stats). change (its_of s1) with (its_of s1') in Hadd.
  set (t := ph_idx p) in *. pose proof Hadd as (Hvac & Ht & Hoth & Hes & Hkv).
  assert (mapped s1' t) as Hmt by (apply Hm; by left).
  unfold u_fill. rewrite (replace_eq s1' (Lcs rs []) p false v _ Ht) by apply same_as_refl.
  cbn [p_key p_hot].
  assert (sh_target_hot s1' = sh_target_hot s ∧ sh_capacity s1' = sh_capacity s) as [Htg Hcap].
  { change (cfg s1') with (cfg s1) in *. unfold cfg in Hcfg. injection Hcfg as H1 H2 H3. done. }
  rewrite Htg, Hcap. pose proof (admission_eq (sh_target_hot s) (Lcs rs []) k v) as Had. cbn [lrs llog] in Had.
  destruct (admission (sh_target_hot s) rs k v) as [[[rs1 es0] v1] over] eqn:Hadm. rewrite Had. clear Had.
  set (l1 := Lcs rs1 ([] ++ es0)). intros H Hcaple. exists s1', t, (Pla k Cold p). split; [done|]. split; [done|].
  destruct over.
  - destruct (over_ph_spec LW s1' l1 p (Pla k Cold p) v1 (Ghost 0) HI1' Ht Hmt eq_refl) as (s2 & E2 & HI2 & Hit2 & _).
    cbn [p_key] in E2. rewrite E2 in H. cbn [rbind is_none assert] in H. injection H as <- _. done.
  - intros Hpin. assert (a_weight (sh_hot s1') = a_weight (sh_hot s)) as Hh1.
    { rewrite (hotw _ HI1'), (hotw _ HI). rewrite Hes. simpl. lia. }
    assert (a_weight (sh_cold s1') = a_weight (sh_cold s)) as Hc1.
    { rewrite (coldw _ HI1'), (coldw _ HI). rewrite Hes. simpl. lia. }
    rewrite Hh1, Hc1 in H. rewrite (wsum_total s HI) in Hpin |- *.
    unfold wadd at 1 in H. destruct (N.ltb_spec (a_weight (sh_hot s) + a_weight (sh_cold s)) two64); cbn [rbind] in H; [|done].
    unfold wadd at 1 in H. destruct (N.ltb_spec (a_weight (sh_hot s) + a_weight (sh_cold s) + weight P k v1) two64); cbn [rbind] in H; [|done].
    set (st := if (_ <=? sh_capacity s)%N then Hot else Cold) in *. cbv zeta in H.
    destruct (enter_ph_spec LW s1' t _ (Res k v1 st 0) HI1' Ht Hmt (keqb_refl _ LW _)) as (s2 & E2 & HI2 & Hit2 & _ & Hst2).
    { cbn [r_state]. change (rweight (Res k v1 st 0)) with (weight P k v1). destruct st; cbn [sh_acct]; [rewrite Hh1|rewrite Hc1]; lia. }
    cbn [r_state] in E2. change (rweight (Res k v1 st 0)) with (weight P k v1) in E2. fold t in H. cbv iota in H. rewrite E2 in H. cbn [rbind] in H.
    exists s2. split; [done|]. split; [done|].
    assert (coldok ks (its_of s1')) as HC1.
    { intros t' r' Ht'. destruct (decide (t' = t)) as [->|Hne]; [congruence|]. apply (HC t' r'), Hoth; done. }
    destruct (static_fields _ _ Hst2) as (_ & Hcap2 & _). rewrite Hcap in Hcap2.
    assert (wsum (sh_iter s2) = a_weight (sh_hot s) + a_weight (sh_cold s) + weight P k v1)%N as Hw2.
    { rewrite sh_iter_kvs, wsum_esum, Hit2, !(esum_upd _ _ _ _ _ Ht), !Hes. rewrite <-(wsum_total s HI), sh_iter_kvs, wsum_esum. simpl. unfold rweight. simpl. destruct st; simpl; rewrite ?decide_True, ?decide_False by done; lia. }
    destruct (N.eqb_spec (weight P k v1) 0) as [Hz|Hz]; cbn [negb] in H.
    { cbn [rbind is_none assert] in H. injection H as <- _. split_and!; try done; try apply calm_refl. }
    unfold finish in H. destruct (evict_until s2 l1 0) as [[s3 l3]|] eqn:Ee; cbn [rbind is_none assert] in H; [|done]. injection H as <- _.
    assert ((a_weight (sh_hot s) + a_weight (sh_cold s) + weight P k v1 ≤ sh_capacity s)%N → s3 = s2) as Hno.
    { intros Hle. destruct (evict_until_spec LW s2 l1 0 HI2) as (s4 & l4 & E4 & _ & _ & _ & Hno); [lia|].
      rewrite E4 in Ee. injection Ee as <- _. apply Hno. lia. }
    destruct (N.leb_spec (a_weight (sh_hot s) + a_weight (sh_cold s) + weight P k v1) (sh_capacity s)) as [Hle|Hgt].
    { rewrite (Hno Hle). split_and!; try done; try apply calm_refl. }
    destruct Hpin as [Hpin|Hpin]; [|lia].
    destruct (evict_calm (k :: ks) s2 l1 0 s3 l3 HI2) as (HI3 & Hc3 & Hh3 & _); [| |done|].
    { intros t' r' Ht' Hs' Hw'. rewrite Hit2 in Ht'. apply list_lookup_insert_Some in Ht' as [(<- & [= <-] & _)|(_ & Ht')].
      - split_and!; [done|done|left].
      - destruct (HC1 _ _ Ht' Hs' Hw') as (A & B & D). split_and!; [done|done|by right]. }
    { rewrite (hotw _ HI2), Hit2, (esum_upd _ _ _ _ _ Ht), Hes, <-(hotw _ HI), Hcap2. simpl. lia. }
    split_and!; try done. lia.
Qed.

(* ---- while the working set is built, everything is hot ---- *)
Record AllHot (n : N) s : Prop := {
  ah_inv : Inv s;
  ah_w : (a_weight (sh_hot s) ≤ n)%N;
  ah_hot : ∀ t e, its_of s !! t = Some (Some e) → ∃ r, e = Resident r ∧ r_state r = Hot;
}.
Lemma allhot_coldok n s : AllHot n s → coldok [] (its_of s).
Proof. intros [_ _ H] t r Ht Hs. destruct (H _ _ Ht) as (r' & [= <-] & Hh). congruence. Qed.
Lemma esum_0 (f : entry → N) its : (∀ t e, its !! t = Some (Some e) → f e = 0%N) → esum f its = 0%N.
Proof.
  induction its as [|o its IH]; intros H; [done|]. change (oget f o + esum f its = 0)%N. rewrite IH by (intros t; apply (H (S t))).
  destruct o as [e|]; [|done]. simpl. by rewrite (H 0 e eq_refl).
Qed.
Lemma allhot_wsum n s : AllHot n s → wsum (sh_iter s) = a_weight (sh_hot s).
Proof.
  intros [HI _ H]. rewrite (wsum_total s HI), (coldw s HI), esum_0; [lia|].
  intros t e Ht. destruct (H _ _ Ht) as (r & -> & Hs). simpl. by rewrite decide_False by (rewrite Hs; done).
Qed.
Lemma allhot_search n s k : AllHot n s →
  (∃ t r, search s (hash P k) k = Ok (Some t) ∧ its_of s !! t = Some (Some (Resident r)) ∧ r_state r = Hot ∧ keqb P k (r_key r) = true) ∨
  (search s (hash P k) k = Ok None ∧ absent s k).
Proof.
  intros [HI _ H]. destruct (search_spec LW s k HI) as (o & E & Ho). rewrite E.
  destruct Ho as [t e k' Hm Ht He Hk|t Hm Ht Ha|Ha Hg]; [| |by right].
  - destruct (H _ _ Ht) as (r & -> & Hs). simpl in He. injection He as <-. left. eauto 10.
  - by destruct (H _ _ Ht) as (r & ? & _).
Qed.
Lemma allhot_upd n n' s s' t r r' : AllHot n s → Inv s' → its_of s !! t = Some (Some (Resident r)) → r_state r = Hot → r_state r' = Hot →
  its_of s' = <[t := Some (Resident r')]> (its_of s) → (n + rweight r' ≤ n' + rweight r)%N → AllHot n' s'.
Proof.
  intros [HI Hw H] HI' Ht Hs Hs' Hit Hle. split; [done| |].
  - rewrite (hotw _ HI), (hotw _ HI') in *. rewrite Hit, (esum_upd _ _ _ _ _ Ht). pose proof (esum_ge (wof Hot) _ _ _ Ht). simpl in *.
    rewrite !decide_True in * by done. lia.
  - intros t' e. rewrite Hit. intros [(<- & [= <-] & _)|(_ & Ht')]%list_lookup_insert_Some; [eauto|]. by eapply H.
Qed.
Lemma allhot_none n s s' t r : AllHot n s → Inv s' → its_of s !! t = Some (Some (Resident r)) →
  its_of s' = <[t := None]> (its_of s) → AllHot n s'.
Proof.
  intros [HI Hw H] HI' Ht Hit. split; [done| |].
  - rewrite (hotw _ HI), (hotw _ HI') in *. rewrite Hit, (esum_upd _ _ _ _ _ Ht). simpl. lia.
  - intros t' e. rewrite Hit. intros [(<- & ? & _)|(_ & Ht')]%list_lookup_insert_Some; [done|]. by eapply H.
Qed.
Lemma allhot_added n w s s' t r : AllHot n s → Inv s' → added (its_of s) (its_of s') t (Resident r) → r_state r = Hot → rweight r = w →
  AllHot (n + w) s'.
Proof.
  intros [HI Hw H] HI' (Hv & Ht & Ho & He & _) Hs <-. split; [done| |].
  - rewrite (hotw _ HI), (hotw _ HI') in *. rewrite He. simpl. rewrite decide_True by done. lia.
  - intros t' e Ht'. destruct (decide (t' = t)) as [->|Hne]; [simplify_eq; eauto|]. apply Ho in Ht'; [|done]. by eapply H.
Qed.
Lemma allhot_mono n n' s : (n ≤ n')%N → AllHot n s → AllHot n' s.
Proof. intros Hle [A B C]. split; [done|lia|done]. Qed.
Lemma bump_state r : r_state (bump r) = r_state r ∧ rweight (bump r) = rweight r ∧ r_key (bump r) = r_key r ∧ r_val (bump r) = r_val r.
Proof. destruct (bump_ref r) as [x ->]. done. Qed.
Lemma its_bump s t r : its_of s !! t = Some (Some (Resident r)) → its_of (record_hit (set_entry s t (Resident (bump r)))) = <[t := Some (Resident (bump r))]> (its_of s).
Proof. intros Ht. by apply (its_set_entry _ _ _ _ Ht). Qed.

(* what a load of a key that is cached does *)
Lemma upsert_hit s k t r : search s (hash P k) k = Ok (Some t) → its_of s !! t = Some (Some (Resident r)) →
  upsert_placeholder s (hash P k) k = Ok (record_hit (set_entry s t (Resident (bump r))), inl (t, r_val r)).
Proof. intros Hs Ht. unfold upsert_placeholder. rewrite Hs. cbn [rbind]. rewrite (entry_at_ok _ _ _ Ht). done. Qed.
Lemma insert_hit s l k v t r s' l' o : Inv s → search s (hash P k) k = Ok (Some t) → its_of s !! t = Some (Some (Resident r)) →
  keqb P k (r_key r) = true → (weight P k v ≤ sh_target_hot s)%N → (wsum (sh_iter s) + weight P k v ≤ sh_capacity s)%N →
  sh_insert s l (hash P k) k v Insert = Ok (s', l', o) → ∃ x, its_of s' = <[t := Some (Resident (Res k v (r_state r) x))]> (its_of s) ∧ Inv s'.
Proof.
  intros HI Hs Ht Hk Hb Hcap. unfold sh_insert.
  destruct (N.ltb_spec (sh_target_hot s) (weight P k v)); [lia|]. simpl. rewrite Hs. cbn [rbind].
  rewrite (ie_res _ _ _ _ _ _ _ r) by (by apply entry_at_ok).
  set (r' := Res k v (r_state r) _). pose proof (reweigh_spec LW s t r r' HI Ht eq_refl (keqb_sym _ LW _ _ Hk)) as Hrw. cbv zeta in Hrw.
  change (rweight r') with (weight P k v) in Hrw. destruct (_ <? _)%N; [|by rewrite Hrw].
  destruct Hrw as (s1 & -> & HI1 & Hit1 & _ & Hst1). cbn [rbind]. unfold finish.
  destruct (static_fields _ _ Hst1) as (_ & Hcap1 & _).
  assert (wsum (sh_iter s1) ≤ sh_capacity s)%N as Hw1.
  { rewrite sh_iter_kvs, wsum_esum, Hit1, !(esum_upd _ _ _ _ _ Ht). rewrite sh_iter_kvs, wsum_esum in Hcap. simpl. change (rweight r') with (weight P k v).
    destruct (r_state r); simpl; rewrite ?decide_True, ?decide_False by done; lia. }
  destruct (evict_until s1 _ 0) as [[s2 l2]|] eqn:Ee; cbn [rbind]; [|done]. intros [= <- _ _].
  destruct (N.ltb_spec (wsum (sh_iter s1) + 0) two64) as [HW2|HW2].
  - destruct (evict_until_spec LW s1 (call_evict l (r_key r) (r_val r)) 0 HI1 HW2) as (s3 & l3 & E3 & _ & _ & _ & Hno). rewrite E3 in Ee. injection Ee as <- _.
    destruct Hno as [-> _]; [lia|]. eauto.
  - by rewrite (evict_until_ovf s1 _ _ HI1 HW2) in Ee.
Qed.
Definition own_weight (c : cmd P) : N := match offer c with Some (k, v) => weight P k v | None => 0 end.
Lemma warm_step budget lim n s c s' o : AllHot n s → sh_target_hot s = budget → (lim ≤ sh_capacity s)%N → warm_call budget lim c →
  (n + own_weight c ≤ lim)%N → exec s c = Ok (s', o) → AllHot (n + own_weight c) s'.
Proof.
  intros HA <- Hcap Hc Hle. pose proof (ah_inv _ _ HA) as HI. pose proof (ah_w _ _ HA) as Hw. pose proof (allhot_wsum _ _ HA) as Hws. unfold own_weight in *.
  destruct c as [k|k|k|k f|k f|k|rs k v soft wl|rs k v wl|f| | | |rs k [v|]|rs k w f|rs k g|rs k f g]; try (by destruct Hc); cbn [exec offer] in *; rewrite ?N.add_0_r.
  - unfold u_contains. destruct (sh_contains s (hash P k) k); cbn [rbind]; [|done]. by intros [= <- _].
  - unfold u_get, sh_get. destruct (search_resident_spec LW s k HI) as ([[t r]|] & -> & Ho); cbn [rbind].
    + destruct Ho as (Ht & Hk & _). intros [= <- _]. fold (bump r). destruct (bump_state r) as (B1 & B2 & _).
      destruct (ah_hot _ _ HA _ _ Ht) as (r0 & [= <-] & Hh).
      eapply (allhot_upd n n s _ t r (bump r)); [done|apply (quiet_bump LW s t r HI Ht)|done|done|congruence|by apply its_bump|lia].
    + intros [= <- _]. destruct HA as [A B C]. split; [by apply inv_stats|done|done].
  - unfold u_peek. destruct (sh_peek s (hash P k) k); cbn [rbind]; [|done]. by intros [= <- _].
  - unfold u_remove, sh_remove. destruct (allhot_search _ _ k HA) as [(t & r & -> & Ht & Hh & Hk)|(-> & _)]; cbn [rbind]; [|by intros [= <- _]].
    destruct (remove_internal_spec LW s t _ HI Ht (res_mapped _ _ _ HI Ht)) as (s1 & Hrm & HI1 & Hit & _).
    simpl in Hrm. rewrite <-(hash_keqb _ LW _ _ Hk) in Hrm. rewrite Hrm. cbn [rbind]. intros [= <- _]. by eapply allhot_none.
  - destruct Hc as [Hb Hlb]. unfold u_insert. destruct (sh_insert _ _ _ _ _ _) as [[[s1 l1] oo]|] eqn:Ei; cbn [rbind]; [|done].
    destruct (assert _); cbn [rbind]; [|done]. intros [= <- _].
    destruct (allhot_search _ _ k HA) as [(t & r & Hs & Ht & Hh & Hk)|(Hs & Ha)].
    + assert (wsum (sh_iter s) + weight P k v ≤ sh_capacity s)%N as Hcw by lia. destruct (insert_hit _ _ _ _ _ _ _ _ _ HI Hs Ht Hk Hb Hcw Ei) as (x & Hit & HI1).
      eapply (allhot_upd n _ s s1 t r); [done|done|done|done| |exact Hit|]; [done|]. unfold rweight. simpl. lia.
    + pose proof (insert_absent [] _ _ _ _ _ _ _ HI (allhot_coldok _ _ HA) Hs Ha Ei) as Hx. cbn [lrs] in Hx.
      unfold admission in Hx. destruct (N.ltb_spec (sh_target_hot s) (weight P k v)); [lia|]. simpl in Hx.
      destruct Hx as (s2 & t & _ & _ & _ & Hno & HI1 & Hadd); [lia|]. rewrite Hno in Hadd by lia.
      destruct (N.leb_spec (a_weight (sh_hot s) + weight P k v) (sh_target_hot s)); [|lia]. by eapply allhot_added.
  - intros Hx. destruct (allhot_search _ _ k HA) as [(t & r & Hs & Ht & Hh & Hk)|(Hs & Ha)].
    + unfold u_get_or_insert in Hx. rewrite (upsert_hit _ _ _ _ Hs Ht) in Hx. cbn [rbind] in Hx. injection Hx as <- _. destruct (bump_state r) as (B1 & B2 & _).
      eapply (allhot_mono n); [lia|]. eapply (allhot_upd n n s _ t r (bump r)); [done|apply (quiet_bump LW s t r HI Ht)|done|done|congruence|by apply its_bump|lia].
    + pose proof (load_absent [] _ _ _ _ _ _ HI (allhot_coldok _ _ HA) Hs Ha Hx) as Hy. 
      unfold admission in Hy. simpl in Hc. destruct (N.ltb_spec (sh_target_hot s) (weight P k v)); [lia|]. simpl in Hy.
      destruct Hy as (s1 & t & p & HI1 & Hadd & Hy); [lia|]. destruct Hy as (s2 & HI2 & Hit2 & HI' & _ & _ & Hno); [right; lia|].
      rewrite <-Hno in Hit2 by lia. destruct (N.leb_spec (wsum (sh_iter s) + weight P k v) (sh_capacity s)); [|lia].
      destruct Hadd as (Hv & Ht & Ho & He & _). split; [done| |].
      * rewrite (hotw _ HI'), Hit2, (esum_upd _ _ _ _ _ Ht), He. rewrite (hotw _ HI) in Hw. simpl. unfold rweight. simpl. lia.
      * intros t' e. rewrite Hit2. intros [(<- & [= <-] & _)|(Hne & Ht')]%list_lookup_insert_Some; [eauto|]. apply Ho in Ht'; [|done]. by eapply HA.
Qed.

Lemma warm_run budget ghosts cap lim h : ∀ n s s' os, AllHot n s → cfg s = (budget, cap, ghosts) → (lim ≤ cap)%N →
  Forall (warm_call budget lim) h → (n + offered_weight h ≤ lim)%N → run s h = Ok (s', os) → AllHot lim s'.
Proof.
  induction h as [|c h IH]; intros n s s' os HA Hcfg Hlc Hc Hle; cbn [run].
  { intros [= <- _]. simpl in Hle. eapply allhot_mono; [|done]. lia. }
  apply Forall_cons in Hc as [Hc Hh]. assert (offered_weight (c :: h) = own_weight c + offered_weight h)%N as Ho.
  { unfold own_weight. cbn [offered_weight foldr]. fold (offered_weight h). by destruct (offer c) as [[k v]|]. }
  rewrite Ho in Hle. clear Ho. destruct (exec s c) as [[s1 o]|] eqn:E; cbn [rbind]; [|done].
  destruct (run s1 h) as [[s2 os2]|] eqn:E2; cbn [rbind]; [|done]. intros [= <- _].
  pose proof Hcfg as Hcfg0. unfold cfg in Hcfg0. injection Hcfg0 as Hb Hcap _.
  eapply (IH (n + own_weight c)%N); [eapply (warm_step budget lim n); try done; [by rewrite Hcap|lia]| |done|done|lia|done].
  pose proof (st_cfg _ _ _ _ (exec_step LW _ _ _ _ (ah_inv _ _ HA) E)) as Hx. congruence.
Qed.

(* ---- the scan ---- *)
Definition hotset (W : contents P) its : Prop := ∀ k v, (k, v) ∈ W → ∃ t r, its !! t = Some (Some (Resident r)) ∧ r_state r = Hot ∧ r_key r = k ∧ r_val r = v.
Record Scanned (lim : N) (W : contents P) (ks : list K) s : Prop := {
  sc_inv : Inv s;
  sc_w : (a_weight (sh_hot s) ≤ lim)%N;
  sc_W : hotset W (its_of s);
  sc_c : coldok ks (its_of s);
}.
Lemma allhot_scanned n s : AllHot n s → Scanned n (sh_iter s) [] s.
Proof.
  intros HA. split; [apply HA|apply HA| |by eapply allhot_coldok].
  intros k v (t & r & Ht & Hk & Hv)%iter_elem. destruct (ah_hot _ _ HA _ _ Ht) as (r' & [= <-] & Hs). eauto 10.
Qed.
Lemma hotset_calm W its its' : calm its its' → hotset W its → hotset W its'.
Proof. intros [A _] H k v Hin. destruct (H k v Hin) as (t & r & Ht & Hs & Hkv). eauto 10. Qed.
Lemma hotset_added W its its' t e : added its its' t e → hotset W its → hotset W its'.
Proof.
  intros (Hv & Ht & Ho & _) H k v Hin. destruct (H k v Hin) as (t1 & r & Ht1 & Hs & Hkv). exists t1, r. split; [|done].
  apply Ho; [|done]. intros ->. by destruct (Hv (Resident r)).
Qed.
Lemma coldok_added ks its its' t e : added its its' t e → coldok ks its →
  (∀ r, e = Resident r → r_state r = Cold → r_ref r = 0%N ∧ rpinned r = false ∧ r_key r ∈ ks) → coldok ks its'.
Proof.
  intros (Hv & Ht & Ho & _) H He t1 r Ht1 Hs Hw. destruct (decide (t1 = t)) as [->|Hne].
  - rewrite Ht in Ht1. injection Ht1 as ->. by apply He.
  - apply Ho in Ht1; [|done]. by apply (H t1 r).
Qed.
Lemma coldok_cons k ks its : coldok ks its → coldok (k :: ks) its.
Proof. intros H t r Ht Hs Hw. destruct (H t r Ht Hs Hw) as (A & B & C). split_and!; [done|done|by right]. Qed.
Lemma coldok_upd ks its t o : coldok ks its → (∀ r, o = Some (Resident r) → r_state r = Cold → rweight r ≠ 0%N → r_ref r = 0%N ∧ rpinned r = false ∧ r_key r ∈ ks) →
  coldok ks (<[t := o]> its).
Proof. intros H Ho t1 r [(<- & -> & _)|(_ & Ht1)]%list_lookup_insert_Some; [by apply Ho|by apply (H t1 r)]. Qed.
Lemma hotset_upd W its t o e : hotset W its → its !! t = Some (Some e) →
  (∀ r, e = Resident r → r_state r = Hot → (r_key r, r_val r) ∈ W → ∃ r', o = Some (Resident r') ∧ r_state r' = Hot ∧ r_key r' = r_key r ∧ r_val r' = r_val r) →
  hotset W (<[t := o]> its).
Proof.
  intros H Ht Ho k v Hin. destruct (H k v Hin) as (t1 & r & Ht1 & Hs & Hk & Hv). destruct (decide (t1 = t)) as [->|Hne].
  - rewrite Ht in Ht1. injection Ht1 as ->. destruct (Ho r eq_refl Hs) as (r' & -> & A & B & C); [by subst|].
    exists t, r'. split; [apply list_lookup_insert; by eapply lookup_lt_Some|]. split_and!; congruence.
  - exists t1, r. rewrite list_lookup_insert_ne by done. done.
Qed.
Lemma scanned_bump lim W ks s t r : Scanned lim W ks s → its_of s !! t = Some (Some (Resident r)) → r_state r = Hot ∨ r_key r ∉ ks →
  Scanned lim W ks (record_hit (set_entry s t (Resident (bump r)))).
Proof.
  intros [A B C D] Ht Hr. destruct (bump_state r) as (B1 & B2 & B3 & B4).
  assert (Inv (record_hit (set_entry s t (Resident (bump r))))) as HI' by apply (quiet_bump LW s t r A Ht).
  split; [done| | |].
  - rewrite (hotw _ HI'), its_bump, (esum_upd _ _ _ _ _ Ht) by done. rewrite (hotw _ A) in B. pose proof (esum_ge (wof Hot) _ _ _ Ht). simpl in *. rewrite B1, B2. destruct (decide _); lia.
  - rewrite its_bump by done. eapply hotset_upd; [done|done|]. intros r0 [= <-] Hs _. exists (bump r). split_and!; congruence.
  - rewrite its_bump by done. apply coldok_upd; [done|]. intros r0 [= <-] Hs Hw. rewrite B1, B2 in *.
    destruct Hr as [Hr|Hr]; [congruence|]. destruct Hr. by apply (D t r).
Qed.
Lemma scanned_erase lim W ks s s' t e : Scanned lim W ks s → its_of s !! t = Some (Some e) →
  (∀ r, e = Resident r → (r_key r, r_val r) ∉ W) → its_of s' = <[t := None]> (its_of s) → Inv s' → Scanned lim W ks s'.
Proof.
  intros [A B C D] Ht He Hit HI'. split; [done| | |].
  - rewrite (hotw _ HI'), Hit, (esum_upd _ _ _ _ _ Ht). rewrite (hotw _ A) in B. simpl. lia.
  - rewrite Hit. eapply hotset_upd; [done|done|]. intros r0 Hr _ Hin. by destruct (He _ Hr).
  - rewrite Hit. by apply coldok_upd.
Qed.
Lemma scanned_insert budget cap lim W ks s rs k v wl s' o : Scanned lim W ks s → sh_target_hot s = budget → sh_capacity s = cap →
  untracked s k → (¬ refused budget rs k v → pinned P k (stored budget rs k v) = false) → (budget ≤ lim)%N →
  (¬ refused budget rs k v → weight P k (stored budget rs k v) + lim ≤ cap)%N →
  u_insert s rs k v wl = Ok (s', o) → Scanned lim W (k :: ks) s'.
Proof.
  intros [A B C D] Hb Hcap Hu Hp Hbl Hw. unfold u_insert. destruct (sh_insert _ _ _ _ _ _) as [[[s1 l1] oo]|] eqn:Ei; cbn [rbind]; [|done].
  destruct (assert _); cbn [rbind]; [|done]. intros [= <- _].
  destruct (untracked_search s k A Hu) as [Hs Ha]. pose proof (insert_absent ks _ _ _ _ _ _ _ A D Hs Ha Ei) as Hx. cbn [lrs] in Hx. rewrite Hb, Hcap in Hx.
  destruct (admission budget rs k v) as [[[rs1 es] v1] over] eqn:Hadm. pose proof (admission_refused _ _ _ _ _ _ _ _ Hadm) as Hr. apply admission_stored in Hadm. subst v1.
  destruct over.
  - destruct Hx as [Hit HI']. split; [done| |by rewrite Hit|rewrite Hit; by apply coldok_cons]. rewrite (hotw _ HI'), Hit. by rewrite <-(hotw _ A).
  - assert (¬ refused budget rs k v) as Hnr by (intros ?; by apply Hr in H). specialize (Hp Hnr). specialize (Hw Hnr).
    destruct Hx as (s2 & t & HI2 & Hcm & Hh2 & _ & HI' & Hadd); [lia|]. set (st := if (_ <=? budget)%N then Hot else Cold) in *.
    split; [done| | |].
    + pose proof (proj1 (proj2 (proj2 (proj2 Hadd))) (wof Hot)) as He. rewrite (hotw _ HI'), He. rewrite <-(hotw _ HI2), Hh2. simpl. unfold rweight. simpl.
      unfold st. destruct (N.leb_spec (a_weight (sh_hot s) + weight P k (stored budget rs k v)) budget); simpl; rewrite ?decide_True, ?decide_False by done; lia.
    + eapply hotset_added; [done|]. by eapply hotset_calm.
    + eapply coldok_added; [done|apply coldok_cons; by eapply calm_coldok|]. intros r [= <-] _. split_and!; [done|done|left].
Qed.
Lemma scanned_load budget cap lim W ks s rs k v s' o : Scanned lim W ks s → sh_target_hot s = budget → sh_capacity s = cap →
  untracked s k → (¬ refused budget rs k v → pinned P k (stored budget rs k v) = false) → lim = cap →
  u_get_or_insert s rs k (Some v) = Ok (s', o) → Scanned lim W (k :: ks) s'.
Proof.
  intros [A B C D] Hb Hcap Hu Hp -> Hx.
  destruct (untracked_search s k A Hu) as [Hs Ha]. pose proof (load_absent ks _ _ _ _ _ _ A D Hs Ha Hx) as Hy. rewrite Hb, Hcap in Hy. specialize (Hy B).
  destruct (admission budget rs k v) as [[[rs1 es] v1] over] eqn:Hadm. pose proof (admission_refused _ _ _ _ _ _ _ _ Hadm) as Hr. apply admission_stored in Hadm. subst v1.
  destruct Hy as (s1 & t & p & HI1 & Hadd & Hy).
  pose proof (hotset_added _ _ _ _ _ Hadd C) as C1. assert (coldok (k :: ks) (its_of s1)) as D1.
  { eapply coldok_added; [done|by apply coldok_cons|done]. }
  pose proof Hadd as (Hv & Ht & Ho & He & _). destruct over.
  - destruct Hy as [Hit HI']. apply (scanned_erase cap W (k :: ks) s1 s' t (Placeholder p)); [split; try done|done|done|done|done].
    rewrite (hotw _ HI1), He. rewrite <-(hotw _ A). simpl. lia.
  - assert (¬ refused budget rs k v) as Hnr by (intros ?; by apply Hr in H). specialize (Hp Hnr).
    rewrite (wsum_total s A) in Hy. destruct Hy as (s2 & HI2 & Hit2 & HI' & Hcm & Hh & _); [by left|]. set (st := if (_ <=? cap)%N then Hot else Cold) in *.
    split; [done| | |].
    + rewrite Hh, (hotw _ HI2), Hit2, (esum_upd _ _ _ _ _ Ht), He, <-(hotw _ A). simpl. unfold rweight. simpl.
      unfold st. destruct (N.leb_spec (a_weight (sh_hot s) + a_weight (sh_cold s) + weight P k (stored budget rs k v)) cap); simpl; rewrite ?decide_True, ?decide_False by done; lia.
    + eapply hotset_calm; [done|]. rewrite Hit2. by eapply hotset_upd.
    + eapply calm_coldok; [done|]. rewrite Hit2. apply coldok_upd; [done|]. intros r [= <-] _ _. split_and!; [done|done|left].
Qed.
Lemma scanned_get lim W ks s k s' o : Scanned lim W ks s → (∀ k', k' ∈ ks → keqb P k k' = false) → sh_get s (hash P k) k = Ok (s', o) → Scanned lim W ks s'.
Proof.
  intros HS Hk. pose proof (sc_inv _ _ _ _ HS) as HI. unfold sh_get. destruct (search_resident_spec LW s k HI) as ([[t r]|] & -> & Ho); cbn [rbind].
  - destruct Ho as (Ht & Hkk & _). intros [= <- _]. fold (bump r). apply scanned_bump; [done|done|]. right. intros Hin. by rewrite (Hk _ Hin) in Hkk.
  - intros [= <- _]. destruct HS as [A B C D]. split; [by apply inv_stats|done|done|done].
Qed.
Lemma scanned_hit lim W ks s rs k v s' o : Scanned lim W ks s → find_key k W ≠ None → u_get_or_insert s rs k (Some v) = Ok (s', o) → Scanned lim W ks s'.
Proof.
  intros HS Hk. pose proof (sc_inv _ _ _ _ HS) as HI. destruct (find_key k W) as [[k' v']|] eqn:Hf; [|done]. clear Hk.
  apply find_key_Some in Hf as [Hin Hkk]. destruct (sc_W _ _ _ _ HS _ _ Hin) as (t & r & Ht & Hs & <- & <-).
  destruct (hit_search s k HI) as (t' & r' & Hse & Ht' & Hk'); [by rewrite (find_iter LW s t r k HI Ht Hkk)|].
  assert (t' = t) as -> by (by eapply (res_uniq s k)). rewrite Ht in Ht'. injection Ht' as <-.
  unfold u_get_or_insert. rewrite (upsert_hit _ _ _ _ Hse Ht). cbn [rbind]. intros [= <- _]. apply scanned_bump; auto.
Qed.
Lemma scanned_remove lim W ks s k s' o : Scanned lim W ks s → find_key k W = None → sh_remove s (hash P k) k = Ok (s', o) → Scanned lim W ks s'.
Proof.
  intros HS Hk. pose proof (sc_inv _ _ _ _ HS) as HI. unfold sh_remove. destruct (search_spec LW s k HI) as (oo & -> & Ho). cbn [rbind].
  destruct Ho as [t e k' Hm Ht He Hkk|t Hm Ht Ha|Ha Hg]; [| |by intros [= <- _]].
  - rewrite <-(ekey_hash LW e k' k) by done. destruct (remove_internal_spec LW s t e HI Ht Hm) as (s1 & -> & HI' & Hit & _). intros [= <- _].
    eapply (scanned_erase _ _ _ s s1 t e); [done|done| |done|done]. intros r ->. simpl in He. injection He as <-. intros Hin.
    pose proof (proj1 (find_key_None _ _) Hk _ Hin) as Hx. simpl in Hx. congruence.
  - destruct (remove_internal_spec LW s t _ HI Ht Hm) as (s1 & E & HI' & Hit & _). simpl in E. rewrite E. intros [= <- _].
    by eapply (scanned_erase _ _ _ s s1 t).
Qed.

Lemma offers_keys (h : list (cmd P)) budget lim c k : Forall (warm_call budget lim) h → c ∈ h → offers c k → k ∈ offered_keys h.
Proof.
  intros Hf Hin Ho. rewrite Forall_forall in Hf. specialize (Hf _ Hin). apply elem_of_list_omap. exists c. split; [done|].
  destruct c as [?|?|?|?|?|?|?|?|?| | | |? ? [v|]|?|?|?]; simpl in *; try done; by subst.
Qed.
Lemma scan_run budget ghosts cap lim W h2 : ∀ h1 os1 s1 os2 s2 seen new, history budget ghosts cap h1 os1 s1 →
  (∀ c k, c ∈ h1 → offers c k → k ∈ seen) → (lim ≤ cap)%N → Scanned lim W new s1 → run s1 h2 = Ok (s2, os2) →
  scanning budget cap lim W seen new h2 → hotset W (its_of s2).
Proof.
  induction h2 as [|c h2 IH]; intros h1 os1 s1 os2 s2 seen new H Hseen Hlc HS; cbn [run].
  { intros [= <- _] _. apply HS. }
  destruct (exec s1 c) as [[s3 o]|] eqn:E; cbn [rbind]; [|done]. destruct (run s3 h2) as [[s4 os4]|] eqn:E2; cbn [rbind]; [|done]. intros [= <- _] Hsc.
  assert (history budget ghosts cap (h1 ++ [c]) (os1 ++ [o]) s3) as H3 by (apply run_snoc; eauto 10).
  destruct (history_inv LW _ _ _ _ _ _ H) as [_ Hcfg]. unfold cfg in Hcfg. injection Hcfg as Hb Hcap _.
  assert (∀ k, (∀ k', k' ∈ seen → hash P k' ≠ hash P k) → untracked s1 k) as Hun.
  { intros k Hk. refine (history_new budget ghosts cap [] h1 s1 os1 k H (or_introl eq_refl) _). intros c' k' Hc' Ho. apply Hk. by eapply Hseen. }
  assert (∀ seen' : list K, (∀ k, offers c k → k ∈ seen') → (∀ k, k ∈ seen → k ∈ seen') → ∀ c' k, c' ∈ h1 ++ [c] → offers c' k → k ∈ seen') as Hs'.
  { intros seen' A B c' k [Hin| ->%elem_of_list_singleton]%elem_of_app Ho; [|by apply A]. apply B. by eapply Hseen. }
  destruct c as [k|k|k|k f|k f|k|rs k v soft wl|rs k v wl|f| | | |rs k [v|]|rs k w f|rs k g|rs k f g]; try (by destruct Hsc); cbn [scanning exec] in *.
  - unfold u_contains in E. destruct (sh_contains s1 _ _); cbn [rbind] in E; [|done]. injection E as <- _. eapply IH; [exact H3|by apply Hs'|done|exact HS|done|done].
  - destruct Hsc as [Hk Hsc]. destruct (u_get s1 k) as [[s5 ov]|] eqn:E5; cbn [rbind] in E; [|done]. injection E as <- _.
    eapply IH; [exact H3|by apply Hs'|done|by eapply scanned_get|done|done].
  - destruct (u_peek s1 k); cbn [rbind] in E; [|done]. injection E as <- _. eapply IH; [exact H3|by apply Hs'|done|exact HS|done|done].
  - destruct Hsc as [Hk Hsc]. destruct (u_remove s1 k) as [[s5 ov]|] eqn:E5; cbn [rbind] in E; [|done]. injection E as <- _.
    eapply IH; [exact H3|by apply Hs'|done|by eapply scanned_remove|done|done].
  - destruct Hsc as (Hf & Hl & Hbl & Hw & Hsc). eapply IH; [exact H3| |done| |done|exact Hsc].
    + apply Hs'; [intros k' ->; left|intros k'; by right].
    + by eapply (scanned_insert budget cap); eauto.
  - destruct Hsc as [[Hk Hsc]|(Hf & Hl & Hcl & Hsc)]; (eapply IH; [exact H3| |done| |done|exact Hsc]); try (apply Hs'; [intros k' ->; left|intros k'; by right]).
    + by eapply scanned_hit.
    + eapply (scanned_load budget cap); eauto. lia.
Qed.
End scanproofs.
