(* Every call of the unsync API does what ApiSpec.v says. *)
From Verif Require Export PropSpec ShardPlace.

Section unsyncproofs.
Context {P : Params} (LW : Lawful P).
Notation K := (K P). Notation V := (V P). Notation RS := (RS P).
Notation shard := (shard P).
Implicit Types (s : shard) (l : lcs P) (k : K) (v : V) (c : contents P) (rs : RS) (p : plh) (es : list (event P)).

Lemma loads_perm_l cap budget rs c c2 k v es rs' c' :
  c ≡ₚ c2 → loads cap budget rs c2 k v es rs' c' → loads cap budget rs c k v es rs' c'.
Proof.
  intros Hp H. inversion H; subst.
  - apply ld_over; [done|]. by rewrite Hp.
  - eapply ld_zero; [done|done|]. by rewrite Hp.
  - eapply ld_in; [done|done| |done|by rewrite Hp]. eapply evicts_perm_l; [|done]. by rewrite Hp.
Qed.
Lemma loads_perm_r cap budget rs c c2 k v es rs' c' :
  loads cap budget rs c k v es rs' c' → c' ≡ₚ c2 → loads cap budget rs c k v es rs' c2.
Proof.
  intros H Hp. assert (∀ x : contents P, x ≡ₚ c' → x ≡ₚ c2) as Ht by (intros; by etrans).
  inversion H as [? ? ? ? ? Hc|? ? ? ? ? ? Hc|? ? ? ? ? ? ? ? He Hw]; subst.
  - apply ld_over; [done|]. by rewrite <-Hp.
  - eapply ld_zero; [done|done|]. by rewrite <-Hp.
  - eapply ld_in; [done|done|by eapply evicts_perm_r| |done].
    destruct Hw as [Hw|Hw]; [left|right]. { by rewrite <-Hp. } intros k0 v0 Hin. apply Hw. by rewrite Hp.
Qed.

Definition pending s k : Prop := ∃ t q, ph_at s t = Some (q, true) ∧ keqb P k (p_key q) = true.
(* statistics *)
Definition counts s (m : cmd P) s' : Prop :=
  match m with
  | CGet k | CGetMut k _ => stats s' = tick (has k (sh_iter s)) (stats s)
  | CGetOrInsert _ k _ | CGetMutOrInsert _ k _ _ | CRefOrGuard _ k _ | CMutOrGuard _ k _ _ =>
      ∃ b, stats s' = tick b (stats s) ∧ (b = true ↔ has k (sh_iter s) = true ∨ pending s k)
  | _ => stats s' = stats s
  end.

(* the pending entries after a call: no new one, except the one of an abandoned load *)
Definition ph_kept s s' (t : nat) (q : placeh P) (b : bool) : Prop := ∃ b', ph_at s t = Some (q, b') ∧ (b = true → b' = true).
Definition ph_grow s s' (a z : bool) : Prop := ∃ t0, ∀ t q b, ph_at s' t = Some (q, b) →
  ph_kept s s' t q b ∨ (t = t0 ∧ a = true ∧ (b = true → z = true)).
Lemma ph_grow_same s s' a z : (∀ t, ph_at s' t = ph_at s t) → ph_grow s s' a z.
Proof. intros H. exists 0. intros t q b. rewrite H. intros Hq. left. by exists b. Qed.
Lemma ph_grow_sub s s' a z k (x : bool) : (∀ t, ph_at s' t = if x then ph_at s t else ph_del k (ph_at s t)) → ph_grow s s' a z.
Proof.
  intros H. exists 0. intros t q b. rewrite H. intros Hq. left. exists b. split; [|done]. destruct x; [done|].
  unfold ph_del in Hq. destruct (ph_at s t) as [[q' []]|]; [|done|done]. by destruct (keqb _ _ _).
Qed.
Lemma ph_grow_none s s' a z : (∀ t, ph_at s' t = None) → ph_grow s s' a z.
Proof. intros H. exists 0. intros t q b. by rewrite H. Qed.
Lemma ph_grow_trans s s1 s' a z : ph_grow s s1 a z → (∀ t, ph_at s' t = ph_at s1 t) → ph_grow s s' a z.
Proof. intros [t0 H] H'. exists t0. intros t q b. rewrite H'. apply H. Qed.

Record step_ok s (m : cmd P) (o : out P) s' : Prop := {
  st_inv : Inv s';
  st_cfg : cfg s' = cfg s;
  st_does : does (sh_capacity s) (sh_target_hot s) (sh_iter s) m o (sh_iter s');
  st_stats : counts s m s';
  st_slots : (slots s' ≤ N.max (slots s) (used s + 1))%N;
  st_slots_ok : guarded m = false → slots_ok s s';
  st_used : (used s' ≤ used s + 1)%N;
  st_ph : ph_grow s s' (abandons m) (strands m);
}.
Definition fails s (m : cmd P) (e : fail) : Prop :=
  match e with
  | SlabFull => (two32 ≤ used s + 2)%N
  | WeightOvf => may_overflow (sh_capacity s) (sh_target_hot s) (sh_iter s) m
  | _ => False
  end.

Lemma slots_refl s s' : slots s' = slots s → slots_ok s s'.
Proof. unfold slots_ok. lia. Qed.
Lemma cfg_static s s' : static s' = static s → cfg s' = cfg s ∧ stats s' = stats s.
Proof. unfold static, cfg, stats. intros H. injection H as ? ? ? ? ? ?. split; congruence. Qed.
Lemma quiet_step s s' m o : quiet s s' →
  does (sh_capacity s) (sh_target_hot s) (sh_iter s) m o (sh_iter s') → counts s m s' → step_ok s m o s'.
Proof.
  intros [A B C D E F G] Hd Hc. split; try done.
  - lia.
  - intros _. by apply slots_refl.
  - lia.
  - by apply ph_grow_same.
Qed.

(* ---- in-place mutation ---- *)
Lemma seen_refers s k o : Inv s → refers s k o → refmut_seen s o = value_of k (sh_iter s).
Proof.
  intros HI Hr. unfold value_of. destruct o as [[t w]|]; simpl in *.
  - destruct Hr as (r & Ht & Hk & _). rewrite (peek_token_ok _ _ _ Ht). by rewrite (find_iter LW s t r k HI Ht Hk).
  - by rewrite Hr.
Qed.
Lemma use_refmut_eq s o f : use_refmut s o f = let! s' := refmut_use s o f in Ok (s', refmut_seen s o).
Proof.
  unfold use_refmut, refmut_use. destruct o as [[t w]|]; [|done].
  by destruct (refmut_write s t f).
Qed.
Lemma use_refmut_spec (E : fail → Prop) s k o f : Inv s → refers s k o →
  ((two64 ≤ wsum (Spec.upd k f (sh_iter s)))%N → E WeightOvf) →
  wp E (use_refmut s o f) (λ '(s', seen), changed s s' ∧ sh_iter s' ≡ₚ Spec.upd k f (sh_iter s) ∧ used s' = used s ∧
    seen = value_of k (sh_iter s)).
Proof.
  intros HI Hr HE. rewrite use_refmut_eq. apply wp_bind.
  eapply wp_mono; [by apply (refmut_use_spec LW E s k o f HI Hr); auto|].
  intros s' (Hc & Hi & Hu). simpl. rewrite (seen_refers s k o HI Hr). done.
Qed.

(* ---- the handle of a pending load, right after it was obtained ---- *)
Record handle s k s1 p : Prop := {
  h_inv : Inv s1;
  h_cfg : cfg s1 = cfg s;
  h_iter : sh_iter s1 ≡ₚ sh_iter s;
  h_good : good_handle s1 p;
  h_own : ∃ kp, owned s1 p = Some kp ∧ keqb P k kp = true;
  h_slots : slots_ok s s1;
  h_used : (used s1 ≤ used s + 1)%N;
  h_ph : ∀ t, t ≠ ph_idx p → ph_at s1 t = ph_at s t;
  h_stats : ∃ b, stats s1 = tick b (stats s) ∧ (b = true ↔ has k (sh_iter s) = true ∨ pending s k);
}.
Lemma same_as_refl p : same_as (P:=P) p p = true.
Proof. unfold same_as. destruct (ptr_ids P); [|done]. by apply bool_decide_true. Qed.
Lemma upserted_handle s k s1 p b : Inv s → upserted s k s1 (inr (p, b)) → find_key k (sh_iter s) = None ∧ handle s k s1 p.
Proof.
  intros HI H. inversion H as [|q Hf [A B C D E F G] Hst Hq Hk|q Hf Hno HI1 Hcfg Hst Hit Hk Hid Hh Hn Hph Hph0 Hsl Hus]; subst.
  - split; [done|]. split; try done.
    + by rewrite B.
    + intros q' b'. rewrite D, Hq. intros [= <- <-] _. done.
    + exists (p_key q). split; [|done]. unfold owned. by rewrite D, Hq, same_as_refl.
    + by apply slots_refl.
    + lia.
    + exists true. split; [done|]. split; [|done]. intros _. right. by exists (ph_idx (p_shared q)), q.
  - split; [done|]. split; try done.
    + intros q' b'. rewrite Hph, decide_True by done. intros [= <- <-] _. done.
    + exists (p_key q). split; [|apply (keqb_refl _ LW)]. unfold owned. by rewrite Hph, decide_True, same_as_refl.
    + intros t Hne. by rewrite Hph, decide_False.
    + exists false. split; [done|]. split; [done|]. unfold has. rewrite Hf. intros [?|(t & q' & Hq' & Hk')]; [done|].
      rewrite (Hno _ _ Hq') in Hk'. done.
Qed.

(* ---- filling a pending load ---- *)
Lemma reply_eq rs es rs' wl r called : finished (P:=P) rs (Lcs rs' ([] ++ es)) wl r called = reply rs es rs' wl r called.
Proof. done. Qed.
Lemma u_fill_spec (E : fail → Prop) s rs k s1 p v wl r called :
  Inv s → handle s k s1 p →
  (∀ kp, keqb P k kp = true → in_overflow (sh_target_hot s) (sh_iter s) rs kp v → E WeightOvf) →
  wp E (u_fill s1 rs p v wl r called) (λ '(s', o),
    Inv s' ∧ cfg s' = cfg s ∧ stats s' = stats s1 ∧
    (∃ kp es rs', keqb P k kp = true ∧
       loads (sh_capacity s) (sh_target_hot s) rs (sh_iter s) kp v es rs' (sh_iter s') ∧
       o = reply rs es rs' wl r called) ∧
    (slots s' ≤ N.max (slots s) (used s + 1))%N ∧ (used s' ≤ used s + 1)%N ∧ at_tok s' k (ph_idx p) ∧
    (∀ a z, ph_grow s s' a z)).
Proof.
  intros HI [HI1 Hcfg Hit Hg (kp & Ho & Hkp) Hsl Hus Hph0 _] HE.
  assert (sh_capacity s1 = sh_capacity s ∧ sh_target_hot s1 = sh_target_hot s) as [Hca Hta].
  { unfold cfg in Hcfg. by injection Hcfg as ? ? ?. }
  unfold u_fill. apply wp_bind.
  pose proof (replace_placeholder_spec LW E s1 (Lcs rs []) p false v HI1 Hg) as H.
  rewrite Ho in H. eapply wp_mono; [apply H|].
  { intros k0 rs1 es v1 [= <-] Ha HW. apply (HE kp Hkp). exists rs1, es, v1. rewrite <-Hta, <-Hit. done. }
  intros [[s' l'] o] (HI' & Hst & -> & (es & Hl & Hld) & Hph & Hs' & Hu' & Hat). simpl.
  destruct (cfg_static _ _ Hst) as [Hc' Hst'].
  split_and!; try done.
  - congruence.
  - exists kp, es, (lrs l'). split; [done|]. rewrite Hca, Hta in Hld. split.
    + by eapply loads_perm_l.
    + destruct l' as [rs' lg]. simpl in *. subst lg. done.
  - unfold slots_ok in *. lia.
  - lia.
  - unfold at_tok in *. destruct (its_of s' !! ph_idx p) as [[[r0|p0|h0]|]|];
      [by rewrite (keqb_cong LW _ _ _ Hkp)|by rewrite (find_key_cong LW _ _ _ Hkp)..].
  - intros a z. exists 0. intros t q b. rewrite Hph. case_decide as Hd; [done|]. rewrite Hph0 by done. intros Hq. left. by exists b.
Qed.

Lemma handle_quiet s k s1 p : handle s k s1 p → (slots s1 ≤ N.max (slots s) (used s + 1))%N.
Proof. intros [_ _ _ _ _ Hs Hu _ _]. unfold slots_ok in Hs. lia. Qed.

Lemma use_guard_spec (E : fail → Prop) s rs k s1 p g :
  Inv s → handle s k s1 p →
  (∀ v wl kp, g = GInsert v wl → keqb P k kp = true → in_overflow (sh_target_hot s) (sh_iter s) rs kp v → E WeightOvf) →
  wp E (use_guard s1 rs p g) (λ '(s', o),
    Inv s' ∧ cfg s' = cfg s ∧ stats s' = stats s1 ∧
    guards (sh_capacity s) (sh_target_hot s) (sh_iter s) rs k g o (sh_iter s') ∧
    (slots s' ≤ N.max (slots s) (used s + 1))%N ∧ (used s' ≤ used s + 1)%N ∧
    ph_grow s s' (match g with GInsert _ _ => false | _ => true end) (match g with GForget => true | _ => false end)).
Proof.
  intros HI Hh HE. destruct g as [v wl| |]; simpl.
  - eapply wp_mono; [apply (u_fill_spec E s rs k s1 p v wl RGuard false HI Hh); eauto|].
    intros [s' o] (A & B & C & D & F & G & _ & H). split_and!; try done.
  - destruct (remove_placeholder_spec LW s1 p (h_inv _ _ _ _ Hh) (h_good _ _ _ _ Hh)) as (s' & -> & HI' & Hit & Hst & Hsl & Hus & Hph).
    simpl. destruct (cfg_static _ _ Hst) as [Hc' Hst']. pose proof (handle_quiet _ _ _ _ Hh). destruct Hh as [HI1 Hcfg Hit1 Hgood Hown _ Hu1 Hph0 _].
    split_and!; try done; [congruence|by rewrite Hit|lia|lia|]. exists (ph_idx p). intros t q b. rewrite Hph. unfold ph_unmap.
    destruct (decide (t = ph_idx p)) as [->|Hne].
    + destruct (ph_at s1 (ph_idx p)) as [[q1 b1]|] eqn:Hq1; [|done]. intros [= <- <-]. right. split_and!; try done.
      destruct (same_as (p_shared q1) p) eqn:Hsa; [by rewrite andb_false_r|].
      exfalso. destruct Hown as (kp & Ho & _). unfold owned in Ho. rewrite Hq1, Hsa in Ho. done.
    + rewrite Hph0 by done. intros Hq. left. exists b. destruct (ph_at s t) as [[q1 b1]|]; [|done]. naive_solver.
  - simpl. pose proof (handle_quiet _ _ _ _ Hh). destruct Hh as [HI1 Hcfg Hit1 _ _ _ Hu1 Hph0 _]. split_and!; try done.
    exists (ph_idx p). intros t q b Hq. destruct (decide (t = ph_idx p)) as [->|Hne]; [by right|]. left. exists b. by rewrite <-Hph0.
Qed.

Lemma exec_spec s m : Inv s → wp (fails s m) (exec s m) (λ '(s', o), step_ok s m o s').
Proof.
  intros HI. destruct m as [k|k|k|k f|k f|k|rs k v soft wl|rs k v wl|f| | | |rs k w|rs k w f|rs k g|rs k f g]; cbn [exec].
  - unfold u_contains. rewrite (sh_contains_spec LW) by done. simpl. apply quiet_step; [by apply quiet_refl|done|done].
  - unfold u_get. destruct (sh_get_spec LW s k HI) as (s' & -> & Hq & Hs). simpl. apply quiet_step; [done| |done].
    simpl. by rewrite (q_iter _ _ Hq).
  - unfold u_peek. rewrite (sh_peek_spec LW) by done. simpl. apply quiet_step; [by apply quiet_refl|done|done].
  - unfold u_get_mut. destruct (sh_get_mut_spec LW s k HI) as (s1 & o & -> & Hq & Hs & Hr). simpl. apply wp_bind.
    eapply wp_mono; [apply (use_refmut_spec _ s1 k o f (q_inv _ _ Hq) Hr)|].
    { simpl. by rewrite (q_iter _ _ Hq). }
    intros [s' seen] ([A B C D] & Hi & Hu & ->). simpl. destruct (cfg_static _ _ B) as [Hc' Hst'].
    destruct Hq as [A1 B1 C1 D1 E1 F1 G1]. rewrite B1 in *. split; simpl; try done; try congruence.
    + lia.
    + intros _. apply slots_refl. lia.
    + lia.
    + apply ph_grow_same. intros t. by rewrite C, D1.
  - unfold u_peek_mut. destruct (sh_peek_mut_spec LW s k HI) as (o & -> & Hr). simpl. apply wp_bind.
    eapply wp_mono; [apply (use_refmut_spec _ s k o f HI Hr); done|].
    intros [s' seen] ([A B C D] & Hi & Hu & ->). simpl. destruct (cfg_static _ _ B) as [Hc' Hst'].
    split; simpl; try done.
    + lia.
    + intros _. by apply slots_refl.
    + lia.
    + by apply ph_grow_same.
  - unfold u_remove. destruct (sh_remove_spec LW s k HI) as (s' & -> & HI' & Hst & Hi & Hph & Hsl & Hu). simpl.
    destruct (cfg_static _ _ Hst) as [Hc' Hst'].
    split; simpl; try done.
    + lia.
    + intros _. by apply slots_refl.
    + lia.
    + by apply (ph_grow_sub _ _ _ _ k false).
  - unfold u_replace. apply wp_bind. eapply wp_mono.
    { apply (sh_insert_spec LW (fails s (CReplace rs k v soft wl)) s (Lcs rs []) k v (Replace soft) HI); simpl.
      - intros rs1 es v1 Ha HW. by exists rs1, es, v1.
      - done. }
    intros [[s' l'] o] (HI' & Hst & (es & Hl & Hin) & Hph & Hsl & Hus & _). simpl in *.
    destruct (cfg_static _ _ Hst) as [Hc' Hst'].
    assert (∀ o', does (sh_capacity s) (sh_target_hot s) (sh_iter s) (CReplace rs k v soft wl) o' (sh_iter s') →
       step_ok s (CReplace rs k v soft wl) o' s') as Hgo.
    { intros o' Hd. split; simpl; try done.
      - unfold slots_ok in Hsl. lia.
      - by eapply ph_grow_sub. }
    destruct l' as [rs' lg]. simpl in *. subst lg.
    destruct o as [kv|]; simpl; apply Hgo; simpl; eauto 10.
  - unfold u_insert. apply wp_bind. eapply wp_mono.
    { apply (sh_insert_spec LW (fails s (CInsert rs k v wl)) s (Lcs rs []) k v Insert HI); simpl.
      - intros rs1 es v1 Ha HW. by exists rs1, es, v1.
      - done. }
    intros [[s' l'] o] (HI' & Hst & (es & Hl & Hin) & Hph & Hsl & Hus & _). simpl in *.
    destruct (cfg_static _ _ Hst) as [Hc' Hst'].
    assert (o = None) as ->.
    { by inversion Hin. }
    destruct l' as [rs' lg]. simpl in *. subst lg.
    split; simpl; try done.
    + eauto.
    + unfold slots_ok in Hsl. lia.
    + by eapply ph_grow_sub.
  - destruct (sh_retain_spec LW s f HI) as (s' & -> & [A B C D] & Hi & Hu). simpl.
    destruct (cfg_static _ _ B) as [Hc' Hst'].
    split; simpl; try done.
    + by rewrite Hi.
    + lia.
    + intros _. by apply slots_refl.
    + lia.
    + by apply ph_grow_same.
  - unfold sh_clear. destruct (sh_drain_spec s HI) as (s' & -> & HI' & Hst & Hi & Hph & Hsl & Hu). simpl.
    destruct (cfg_static _ _ Hst) as [Hc' Hst'].
    split; simpl; try done; unfold slots_ok; try lia. by apply ph_grow_none.
  - destruct (sh_drain_spec s HI) as (s' & -> & HI' & Hst & Hi & Hph & Hsl & Hu). simpl.
    destruct (cfg_static _ _ Hst) as [Hc' Hst'].
    split; simpl; try done; unfold slots_ok; try lia; [eauto|by apply ph_grow_none].
  - destruct (sh_reserve_spec s HI) as (s' & -> & Hq & Hst). simpl. apply quiet_step; [done| |done]. simpl.
    by rewrite (q_iter _ _ Hq).
  - unfold u_get_or_insert. apply wp_bind. eapply wp_mono; [apply (upsert_spec LW (fails s (CGetOrInsert rs k w)) s k HI); done|].
    intros [s1 [[t v0]|[p b]]] Hup.
    + inversion Hup as [t' ko vo r Hf Hq Hst Ht Hk Hv| |]; subst. simpl.
      rewrite (peek_token_ok _ _ _ Ht). apply quiet_step; [done| |].
      * simpl. unfold value_of. rewrite Hf. simpl. by rewrite (q_iter _ _ Hq).
      * simpl. exists true. split; [done|]. unfold has. rewrite Hf. naive_solver.
    + apply upserted_handle in Hup as [Hf Hh]; [|done].
      assert (value_of k (sh_iter s) = None) as Hv0 by (unfold value_of; by rewrite Hf).
      destruct w as [v|]; simpl.
      * apply wp_bind. eapply wp_mono; [apply (u_fill_spec _ s rs k s1 p v false RUnit true HI Hh); simpl; eauto|].
        intros [s' o] (HI' & Hcfg & Hst & (kp & es & rs' & Hkp & Hld & ->) & Hsl & Hus & Hat & Hgr). simpl.
        split; simpl; try done.
        -- rewrite Hv0. exists kp, es, rs'. split_and!; try done. unfold reply. simpl. do 2 f_equal.
           by apply (at_tok_peek LW).
        -- destruct (h_stats _ _ _ _ Hh) as (b' & Hb' & ?). exists b'. by rewrite Hst.
      * destruct (h_stats _ _ _ _ Hh) as (b' & Hb' & ?). pose proof (handle_quiet _ _ _ _ Hh).
        destruct Hh as [A B C D E F G Hph0 _]. split; simpl; try done; [by rewrite Hv0|eauto|].
        exists (ph_idx p). intros t q bb Hq. destruct (decide (t = ph_idx p)) as [->|Hne]; [by right|]. left. exists bb. by rewrite <-Hph0.
  - unfold u_get_mut_or_insert. apply wp_bind. eapply wp_mono; [apply (upsert_spec LW (fails s (CGetMutOrInsert rs k w f)) s k HI); done|].
    intros [s1 [[t v0]|[p b]]] Hup.
    + inversion Hup as [t' ko vo r Hf Hq Hst Ht Hk Hv| |]; subst. simpl. apply wp_bind.
      assert (keqb P k (r_key r) = true) as Hkr by (apply find_key_Some in Hf; naive_solver).
      eapply wp_mono; [apply (use_refmut_spec _ s1 k _ f (q_inv _ _ Hq))|].
      { rewrite (peek_token_mut_ok _ _ _ Ht). simpl. eauto. }
      { simpl. rewrite (q_iter _ _ Hq). auto. }
      intros [s' seen] ([A B C D] & Hi & Hu & ->). simpl. destruct (cfg_static _ _ B) as [Hc' Hst'].
      destruct Hq as [A1 B1 C1 D1 E1 F1 G1]. rewrite B1 in *. unfold value_of. rewrite Hf.
      split; simpl; try done; try congruence.
      * unfold value_of. by rewrite Hf.
      * exists true. split; [congruence|]. unfold has. rewrite Hf. naive_solver.
      * lia.
      * lia.
      * apply ph_grow_same. intros x. by rewrite C, D1.
    + apply upserted_handle in Hup as [Hf Hh]; [|done].
      assert (value_of k (sh_iter s) = None) as Hv0 by (unfold value_of; by rewrite Hf).
      destruct w as [v|]; simpl.
      * apply wp_bind. eapply wp_mono; [apply (u_fill_spec _ s rs k s1 p v false RUnit true HI Hh); simpl; eauto 10|].
        intros [s2 o] (HI' & Hcfg & Hst & (kp & es & rs' & Hkp & Hld & ->) & Hsl & Hus & Hat & Hgr). simpl. apply wp_bind.
        eapply wp_mono; [apply (use_refmut_spec _ s2 k _ f HI')|].
        { by apply (at_tok_refers). }
        { simpl. intros HW. right. exists v, kp. split_and!; try done. right. eauto. }
        intros [s' seen] ([A B C D] & Hi & Hu & ->). simpl. destruct (cfg_static _ _ B) as [Hc' Hst'].
        split; simpl; try done.
        -- congruence.
        -- rewrite Hv0. exists kp, es, rs', (sh_iter s2). done.
        -- destruct (h_stats _ _ _ _ Hh) as (b' & Hb' & ?). exists b'. split; [congruence|done].
        -- lia.
        -- lia.
        -- eapply ph_grow_trans; [apply Hgr|done].
      * destruct (h_stats _ _ _ _ Hh) as (b' & Hb' & ?). pose proof (handle_quiet _ _ _ _ Hh).
        destruct Hh as [A B C D E F G Hph0 _]. split; simpl; try done; [by rewrite Hv0|eauto|].
        exists (ph_idx p). intros t q bb Hq. destruct (decide (t = ph_idx p)) as [->|Hne]; [by right|]. left. exists bb. by rewrite <-Hph0.
  - unfold u_ref_or_guard. apply wp_bind. eapply wp_mono; [apply (upsert_spec LW (fails s (CRefOrGuard rs k g)) s k HI); done|].
    intros [s1 [[t v0]|[p b]]] Hup.
    + inversion Hup as [t' ko vo r Hf Hq Hst Ht Hk Hv| |]; subst. simpl.
      apply quiet_step; [done| |].
      * simpl. unfold value_of. rewrite Hf. simpl. by rewrite (q_iter _ _ Hq).
      * simpl. exists true. split; [done|]. unfold has. rewrite Hf. naive_solver.
    + apply upserted_handle in Hup as [Hf Hh]; [|done].
      assert (value_of k (sh_iter s) = None) as Hv0 by (unfold value_of; by rewrite Hf).
      eapply wp_mono; [apply (use_guard_spec _ s rs k s1 p g HI Hh)|].
      { simpl. intros v wl kp -> ? ?. eauto. }
      intros [s' o] (A & B & C & D & F & G & Hgr). split; simpl; try done.
      * by rewrite Hv0.
      * destruct (h_stats _ _ _ _ Hh) as (b' & Hb' & ?). exists b'. split; [congruence|done].
  - unfold u_mut_or_guard. apply wp_bind. eapply wp_mono; [apply (upsert_spec LW (fails s (CMutOrGuard rs k f g)) s k HI); done|].
    intros [s1 [[t v0]|[p b]]] Hup.
    + inversion Hup as [t' ko vo r Hf Hq Hst Ht Hk Hv| |]; subst. simpl. apply wp_bind.
      assert (keqb P k (r_key r) = true) as Hkr by (apply find_key_Some in Hf; naive_solver).
      eapply wp_mono; [apply (use_refmut_spec _ s1 k _ f (q_inv _ _ Hq))|].
      { rewrite (peek_token_mut_ok _ _ _ Ht). simpl. eauto. }
      { simpl. rewrite (q_iter _ _ Hq). auto. }
      intros [s' seen] ([A B C D] & Hi & Hu & ->). simpl. destruct (cfg_static _ _ B) as [Hc' Hst'].
      destruct Hq as [A1 B1 C1 D1 E1 F1 G1]. rewrite B1 in *. unfold value_of. rewrite Hf.
      split; simpl; try done; try congruence.
      * unfold value_of. by rewrite Hf.
      * exists true. split; [congruence|]. unfold has. rewrite Hf. naive_solver.
      * lia.
      * lia.
      * apply ph_grow_same. intros x. by rewrite C, D1.
    + apply upserted_handle in Hup as [Hf Hh]; [|done].
      assert (value_of k (sh_iter s) = None) as Hv0 by (unfold value_of; by rewrite Hf).
      eapply wp_mono; [apply (use_guard_spec _ s rs k s1 p g HI Hh)|].
      { simpl. intros v wl kp -> ? ?. right. eauto 10. }
      intros [s' o] (A & B & C & D & F & G & Hgr). split; simpl; try done.
      * by rewrite Hv0.
      * destruct (h_stats _ _ _ _ Hh) as (b' & Hb' & ?). exists b'. split; [congruence|done].
Qed.
(* a key the hash table does not know is resident after an admitted insert *)
Lemma insert_fresh s rs k v wl s' o : Inv s → untracked s k → (admission (sh_target_hot s) rs k v).2 = false →
  exec s (CInsert rs k v wl) = Ok (s', o) → (k, (admission (sh_target_hot s) rs k v).1.2) ∈ sh_iter s'.
Proof.
  intros HI Hu Ha He. cbn [exec] in He. unfold u_insert in He.
  pose proof (sh_insert_spec LW (λ _, True) s (Lcs rs []) k v Insert HI) as H.
  destruct (sh_insert s (Lcs rs []) (hash P k) k v Insert) as [[[s1 l1] o1]|]; [|done]. simpl in *.
  destruct (assert _); [|done]. simpl in He. injection He as <- _.
  destruct H as (_ & _ & _ & _ & _ & _ & H); auto.
Qed.
End unsyncproofs.
