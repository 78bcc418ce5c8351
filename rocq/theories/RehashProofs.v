(* The machine of Policy.v does not depend on the hasher. *)
From Verif Require Export Rehash PolicyStep PolicyDet.

Section rehashproofs.
Context {P : Params} {h : K P → N} {pr : table → N → list nat} {ti : table → list nat} {gr : table → bool}.
Notation P' := (rehashed P h pr ti gr).
Context (LW : Lawful P) (LW' : Lawful P') (S : K P → Prop)
  (NC : ∀ k k', S k → S k' → hash P k = hash P k' → keqb P k k' = true) (NC' : ∀ k k' : K P, S k → S k' → h k = h k' → keqb P k k' = true).
Notation item := (resident P).
Implicit Types (k : K P) (v : V P) (x y : item) (A B L : list item) (l : lcs P) (p q : policy P) (lim : limits) (G : list N).

Definition ri x : resident P' := Res (P:=P') (r_key x) (r_val x) (r_state x) (r_ref x).
Definition rl l : lcs P' := Lcs (P:=P') (lrs l) (re_event <$> llog l).
Definition rp p G : policy P' := Pol (P:=P') (ri <$> q_hot p) (ri <$> q_cold p) (ri <$> q_idle p) G (q_loads p).
Definition gh G G' : Prop := ∃ ks : list (K P), Forall S ks ∧ G = hash P <$> ks ∧ G' = hash P' <$> ks.

Lemma rp_list p G st : q_list (rp p G) st = ri <$> q_list p st.
Proof. by destruct st. Qed.
Lemma rp_put p G st L : rp (put_list p st L) G = put_list (rp p G) st (ri <$> L).
Proof. by destruct st. Qed.
Lemma rp_put_ghosts p st L : q_ghosts (put_list p st L) = q_ghosts p.
Proof. by destruct st. Qed.
Lemma rp_back p G x : rp (to_back p x) G = to_back (rp p G) (ri x).
Proof.
  unfold to_back. change (weightless (ri x)) with (weightless x). destruct (weightless x).
  - unfold put_idle, rp. simpl. by rewrite fmap_app.
  - rewrite rp_put. change (r_state (ri x)) with (r_state x). by rewrite rp_list, fmap_app.
Qed.
Lemma back_ghosts p x : q_ghosts (to_back p x) = q_ghosts p.
Proof. unfold to_back. destruct (weightless x); [done|apply rp_put_ghosts]. Qed.
Lemma rp_items p G : q_items (rp p G) = ri <$> q_items p.
Proof. unfold q_items. by rewrite !fmap_app. Qed.
Lemma rp_weight L : tweight (ri <$> L) = tweight L.
Proof. induction L as [|x L IH]; [done|]. unfold tweight in *. cbn [fmap list_fmap foldr]. rewrite <-IH. done. Qed.
Lemma rl_before l k v : call_before (P:=P') (rl l) k v = (rl (call_before l k v).1, (call_before l k v).2).
Proof.
  unfold call_before. change (before_evict P' (lrs (rl l)) k v) with (before_evict P (lrs l) k v).
  destruct (before_evict P (lrs l) k v) as [rs' v']. unfold rl. simpl. by rewrite fmap_app.
Qed.
Lemma rl_evict l k v : call_evict (P:=P') (rl l) k v = rl (call_evict l k v).
Proof. unfold call_evict, rl. simpl. by rewrite fmap_app. Qed.

Lemma r_clock seen A B L o : clock seen A B L o → clock seen (ri <$> A) (ri <$> B) (ri <$> L) (ri <$> o).
Proof.
  induction 1 as [seen A L o HA H IH|A x Hp|seen A x B L o Hp Hs H IH|seen A x B L o Hp Hr H IH|seen A x B Hp Hr].
  - apply clock_round; [by destruct A|done].
  - rewrite fmap_app. by apply (clock_give_up (P:=P') (ri <$> A) (ri x)).
  - rewrite fmap_app in IH. apply (clock_pinned (P:=P') seen (ri <$> A) (ri x)); [done| |done].
    destruct Hs as [?|Hs]; [by left|]. right. by destruct B.
  - rewrite fmap_app in IH. by apply (clock_used (P:=P') seen (ri <$> A) (ri x)).
  - rewrite fmap_app. by apply (clock_take (P:=P') seen (ri <$> A) (ri x)).
Qed.
Lemma r_drop_hot p l x q l' G : drop_hot p l x = (q, l') → drop_hot (rp p G) (rl l) (ri x) = (rp q G, rl l') ∧ q_ghosts q = q_ghosts p.
Proof.
  unfold drop_hot. change (r_key (ri x)) with (r_key x). change (r_val (ri x)) with (r_val x). rewrite rl_before.
  destruct (call_before l (r_key x) (r_val x)) as [l1 v1]. cbn [fst snd].
  change (weightless (put_val (ri x) v1)) with (weightless (put_val x v1)).
  destruct (weightless (put_val x v1)); intros [= <- <-].
  - split; [|done]. f_equal. unfold put_idle, rp. simpl. by rewrite fmap_app.
  - split; [|done]. by rewrite <-rl_evict.
Qed.
Lemma r_drop_cold lim p l x q l' G : S (r_key x) → drop_cold lim p l x = (q, l') → gh (q_ghosts p) G →
  ∃ G', drop_cold lim (rp p G) (rl l) (ri x) = (rp q G', rl l') ∧ gh (q_ghosts q) G'.
Proof.
  intros HS. unfold drop_cold. change (r_key (ri x)) with (r_key x). change (r_val (ri x)) with (r_val x). rewrite rl_before.
  destruct (call_before l (r_key x) (r_val x)) as [l1 v1]. cbn [fst snd].
  change (weightless (put_val (ri x) v1)) with (weightless (put_val x v1)).
  destruct (weightless (put_val x v1)); intros [= <- <-] Hg.
  - exists G. split; [|done]. f_equal. unfold put_idle, rp. simpl. by rewrite fmap_app.
  - destruct Hg as (ks & Hks & Hk & ->). cbn [rp q_ghosts].
    exists (if (lm_ghosts lim <? N.of_nat (length (hash P' <$> (ks ++ [r_key x]))))%N then hash P' <$> (tail (ks ++ [r_key x])) else hash P' <$> (ks ++ [r_key x])).
    split.
    + rewrite <-rl_evict. f_equal. unfold put_ghosts, rp. cbn [q_hot q_cold q_idle q_loads]. f_equal.
      rewrite fmap_app. cbn [fmap list_fmap]. destruct (_ <? _)%N; [|done]. destruct ks as [|k0 ks]; [done|]. cbn. by rewrite fmap_app.
    + cbn [put_ghosts q_ghosts]. rewrite Hk. exists (if (lm_ghosts lim <? N.of_nat (length (hash P' <$> (ks ++ [r_key x]))))%N then tail (ks ++ [r_key x]) else ks ++ [r_key x]). split.
      { assert (Forall S (ks ++ [r_key x])) as Hf by (apply Forall_app; split; [done|by repeat constructor]).
        destruct (_ <? _)%N; [|done]. destruct (ks ++ [r_key x]); [done|]. by inversion Hf. }
      rewrite !app_length, !fmap_length, !app_length. cbn [length]. destruct (_ <? _)%N; [|by rewrite !fmap_app]. split; [|done]. destruct ks as [|k0 ks]; [done|]. cbn. by rewrite fmap_app.
Qed.
Lemma r_hot_hand p l q l' b G : hot_hand p l q l' b → hot_hand (rp p G) (rl l) (rp q G) (rl l') b ∧ q_ghosts q = q_ghosts p.
Proof.
  destruct 1 as [H|L Hn H|L x q l' H Hd].
  - split; [|done]. apply hot_none. cbn. by rewrite H.
  - split; [|done]. apply r_clock in H. apply (hot_stuck (P:=P') (rp p G) (rl l) (ri <$> L)); [|done]. cbn. by destruct (q_hot p).
  - apply r_clock in H. apply (r_drop_hot _ _ _ _ _ G) in Hd as [Hd Hg]. split; [|done].
    by apply (hot_out (P:=P') (rp p G) (rl l) (ri <$> L) (ri x)).
Qed.
Lemma r_trim lim p l q l' G : trim lim p l q l' → trim lim (rp p G) (rl l) (rp q G) (rl l') ∧ q_ghosts q = q_ghosts p.
Proof.
  induction 1 as [p l Hle|p l q l' Hlt H|p l q1 l1 q l' Hlt H Ht IH].
  - split; [|done]. apply trim_done. cbn [rp q_hot]. by rewrite rp_weight.
  - apply (r_hot_hand _ _ _ _ _ G) in H as [H Hg]. split; [|done]. apply trim_stuck; [|done]. cbn [rp q_hot]. by rewrite rp_weight.
  - apply (r_hot_hand _ _ _ _ _ G) in H as [H Hg]. destruct IH as [IH Hg']. split; [|congruence]. eapply trim_more; [|done..]. cbn [rp q_hot]. by rewrite rp_weight.
Qed.
Lemma r_skipped A : Forall skipped A → Forall (skipped (P:=P')) (ri <$> A).
Proof. intros H. apply Forall_fmap. exact H. Qed.
Lemma r_cold_hand lim p l q l' b G : KS S p → cold_hand lim p l q l' b → gh (q_ghosts p) G →
  ∃ G', cold_hand lim (rp p G) (rl l) (rp q G') (rl l') b ∧ gh (q_ghosts q) G'.
Proof.
  intros HS H Hg. destruct H as [q l' b Hs H|A x B q l' HL HA Hr H|A x B q l' HL HA Hr Hp H].
  - apply (r_hot_hand _ _ _ _ _ G) in H as [H Hg']. exists G. rewrite Hg'. split; [|done]. apply cold_none; [by apply r_skipped|done].
  - apply (r_trim _ _ _ _ _ G) in H as [H Hg']. exists G. rewrite Hg', back_ghosts. split; [|done].
    rewrite rp_back in H. eapply (cold_up (P:=P') lim (rp p G) (rl l) (ri <$> A) (ri x) (ri <$> B)); [|by apply r_skipped|done|].
    + cbn [rp q_cold]. by rewrite HL, fmap_app.
    + rewrite <-fmap_app. exact H.
  - assert (S (r_key x)) as Hx by (apply (KS_in S p); [done|]; unfold q_items; rewrite HL, !elem_of_app, elem_of_cons; tauto).
    destruct (r_drop_cold _ _ _ _ _ _ G Hx H Hg) as (G' & H' & Hg'). exists G'. split; [|done].
    eapply (cold_out (P:=P') lim (rp p G) (rl l) (ri <$> A) (ri x) (ri <$> B)); [|by apply r_skipped|done|done|].
    + cbn [rp q_cold]. by rewrite HL, fmap_app.
    + rewrite <-fmap_app. exact H'.
Qed.
Lemma r_room lim n p l q l' : make_room lim n p l q l' → KS S p → ∀ G, gh (q_ghosts p) G →
  ∃ G', make_room lim n (rp p G) (rl l) (rp q G') (rl l') ∧ gh (q_ghosts q) G'.
Proof.
  induction 1 as [p l Hle|p l q l' Hlt H|p l q1 l1 q l' Hlt H Ht IH]; intros HS G Hg.
  - exists G. split; [|done]. apply room_done. cbn [rp q_hot q_cold]. by rewrite !rp_weight.
  - destruct (r_cold_hand _ _ _ _ _ _ G HS H Hg) as (G' & H' & Hg'). exists G'. split; [|done]. apply room_stuck; [|done]. cbn [rp q_hot q_cold]. by rewrite !rp_weight.
  - destruct (r_cold_hand _ _ _ _ _ _ G HS H Hg) as (G1 & H' & Hg1). destruct (IH (KS_cold_hand S _ _ _ _ _ _ H HS) G1 Hg1) as (G' & H2 & Hg'). exists G'. split; [|done].
    eapply room_more; [|done..]. cbn [rp q_hot q_cold]. by rewrite !rp_weight.
Qed.

Lemma r_leave p x q G : leave p x q → leave (rp p G) (ri x) (rp q G) ∧ q_ghosts q = q_ghosts p.
Proof.
  destruct 1 as [st A B H|A B H].
  - rewrite rp_put, rp_put_ghosts, fmap_app. split; [|done]. apply leave_list. by rewrite rp_list, H, fmap_app.
  - split; [|done]. change (rp (put_idle p (A ++ B)) G) with (put_idle (rp p G) (ri <$> (A ++ B))). rewrite fmap_app. apply leave_idle. cbn. by rewrite H, fmap_app.
Qed.
Lemma r_turn p x y q G : turn p x y q → turn (rp p G) (ri x) (ri y) (rp q G) ∧ q_ghosts q = q_ghosts p.
Proof.
  destruct 1 as [st A B H Hw|A B H Hw|st A B H Hw|A B H Hw].
  - rewrite rp_put, rp_put_ghosts, fmap_app. split; [|done]. apply turn_list; [|done]. by rewrite rp_list, H, fmap_app.
  - split; [|done]. change (rp (put_idle p (A ++ y :: B)) G) with (put_idle (rp p G) (ri <$> (A ++ y :: B))). rewrite fmap_app. apply turn_idle; [|done]. cbn. by rewrite H, fmap_app.
  - split; [|by destruct st].
    assert (rp (put_idle (put_list p st (B ++ A)) (q_idle p ++ [y])) G = put_idle (put_list (rp p G) st ((ri <$> B) ++ (ri <$> A))) (q_idle (rp p G) ++ [ri y])) as ->.
    { destruct st; unfold put_idle, rp; cbn; by rewrite !fmap_app. }
    apply turn_lost; [|done]. by rewrite rp_list, H, fmap_app.
  - split; [|by rewrite back_ghosts]. rewrite rp_back.
    change (rp (put_idle p (A ++ B)) G) with (put_idle (rp p G) (ri <$> (A ++ B))). rewrite fmap_app. apply turn_gained; [|done]. cbn. by rewrite H, fmap_app.
Qed.
Lemma r_item p k x G : item_of p k x → item_of (rp p G) k (ri x).
Proof. intros [H1 H2]. split; [|done]. rewrite rp_items. by apply elem_of_list_fmap_1. Qed.
Lemma r_no_item p k G : no_item p k → no_item (rp p G) k.
Proof. intros H x'. rewrite rp_items. intros (x & -> & Hx)%elem_of_list_fmap. by apply (H x). Qed.
Lemma r_loading p k k0 st G : loading p k k0 st → loading (rp p G) k k0 st.
Proof. intros [H1 H2]. split; [by apply r_no_item|done]. Qed.
Lemma r_ghost p k q G : S k → ghost_of p k q → gh (q_ghosts p) G → ∃ G', ghost_of (rp p G) k (rp q G') ∧ gh (q_ghosts q) G'.
Proof.
  intros HS (H1 & H2 & G1 & G2 & H3 & ->) (ks & Hks & Hk & ->). rewrite H3 in Hk. symmetry in Hk.
  apply fmap_app_inv in Hk as (ks1 & ks2 & -> & Hk2 & ->).
  destruct ks2 as [|k0 ks2]; [done|]. cbn in Hk2. injection Hk2 as Hh Hk2; subst G2. apply Forall_app in Hks as [Hks1 Hks2]. inversion Hks2; subst.
  exists (hash P' <$> (ks1 ++ ks2)). split; [|exists (ks1 ++ ks2); split; [by apply Forall_app|]; split; [cbn [put_ghosts q_ghosts]; symmetry; apply fmap_app|done]].
  split_and!; [by apply r_no_item|done|]. exists (hash P' <$> ks1), (hash P' <$> ks2). split; [|by rewrite fmap_app].
  cbn [rp q_ghosts]. rewrite fmap_app. cbn [fmap list_fmap]. do 2 f_equal. apply (hash_keqb _ LW'). by apply NC.
Qed.
Lemma r_unknown p k G : S k → unknown p k → gh (q_ghosts p) G → unknown (rp p G) k.
Proof.
  intros HS (H1 & H2 & H3) (ks & Hks & Hk & ->). split_and!; [by apply r_no_item|done|]. cbn [rp q_ghosts].
  intros (k0 & Hh & Hin)%elem_of_list_fmap. apply H3. rewrite Hk. apply elem_of_list_fmap. exists k0. split; [|done].
  apply (hash_keqb _ LW). rewrite Forall_forall in Hks. by apply NC'; [|apply Hks|].
Qed.
Lemma r_shown lim l k v : shown (P:=P') lim (rl l) k v = (rl (shown lim l k v).1, (shown lim l k v).2).
Proof. unfold shown. change (big (P:=P') lim k v) with (big (P:=P) lim k v). destruct (big lim k v); [apply rl_before|done]. Qed.
Lemma r_shown_eq lim l k v l1 v1 : shown lim l k v = (l1, v1) → shown (P:=P') lim (rl l) k v = (rl l1, v1).
Proof. intros H. by rewrite r_shown, H. Qed.

Lemma back_in p k v st n : KS S p → S k → KS S (to_back p (Res k v st n)).
Proof. intros HP HS. by apply KS_back. Qed.
Lemma r_inserting lim p l k v strat q l' o G : KS S p → S k → inserting lim p l k v strat q l' o → gh (q_ghosts p) G →
  ∃ G', inserting (P:=P') lim (rp p G) (rl l) k v strat (rp q G') (rl l') o ∧ gh (q_ghosts q) G'.
Proof.
  intros HP HS H Hg. destruct H as [strat l1 v1 x q Hs Ht Hx Hl|strat l1 v1 Hs Ht Hn|strat l1 v1 x q1 q l' Hs Ht Hx Htu Hm|strat l1 v1 Hs Ht Hn Hr
    |l1 v1 k0 st q l' Hs Ht Hl Hm|l1 v1 q1 q l' Hs Ht Hgo Hm|l1 v1 q l' Hs Ht Hu Hm]; apply r_shown_eq in Hs.
  - apply (r_leave _ _ _ G) in Hl as [Hl Hq]. exists G. rewrite Hq. split; [|done].
    pose proof (insert_refused_old (P:=P') lim (rp p G) (rl l) k v strat _ _ (ri x) (rp q G) Hs Ht (r_item _ _ _ _ Hx) Hl) as HH.
    destruct (is_replace strat); rewrite <-!rl_evict; exact HH.
  - exists G. split; [|done]. pose proof (insert_refused_new (P:=P') lim (rp p G) (rl l) k v strat _ _ Hs Ht (r_no_item _ _ _ Hn)) as HH.
    destruct (is_replace strat); rewrite <-?rl_evict; exact HH.
  - pose proof (KS_turn S _ _ _ _ Htu HS HP) as HP1. apply (r_turn _ _ _ _ G) in Htu as [Htu Hq]. rewrite <-Hq in Hg. destruct (r_room _ _ _ _ _ _ Hm HP1 G Hg) as (G' & Hm' & Hg'). exists G'. split; [|done].
    rewrite <-rl_evict in Hm'. exact (insert_over (P:=P') lim (rp p G) (rl l) k v strat _ _ (ri x) _ _ _ Hs Ht (r_item _ _ _ _ Hx) Htu Hm').
  - exists G. split; [|done]. exact (insert_nothing (P:=P') lim (rp p G) (rl l) k v strat _ _ Hs Ht (r_no_item _ _ _ Hn) Hr).
  - destruct (r_room _ _ _ _ _ _ Hm (back_in (put_load p k None) k v1 st 1%N HP HS) G) as (G' & Hm' & Hg'); [by rewrite back_ghosts|]. exists G'. split; [|done]. rewrite rp_back in Hm'.
    exact (insert_loading (P:=P') lim (rp p G) (rl l) k v _ _ k0 st _ _ Hs Ht (r_loading _ _ _ _ _ Hl) Hm').
  - assert (KS S q1) as HP1 by (destruct Hgo as (_ & _ & ? & ? & _ & ->); exact HP).
    destruct (r_ghost _ _ _ _ HS Hgo Hg) as (G1 & Hgo' & Hg1). destruct (r_room _ _ _ _ _ _ Hm (back_in q1 k v1 Hot 0%N HP1 HS) G1) as (G' & Hm' & Hg'); [by rewrite back_ghosts|].
    exists G'. split; [|done]. rewrite rp_back in Hm'. exact (insert_ghost (P:=P') lim (rp p G) (rl l) k v _ _ _ _ _ Hs Ht Hgo' Hm').
  - destruct (r_room _ _ _ _ _ _ Hm HP G Hg) as (G' & Hm' & Hg'). exists G'. rewrite back_ghosts. split; [|done]. rewrite rp_back.
    pose proof (insert_new (P:=P') lim (rp p G) (rl l) k v _ _ _ _ Hs Ht (r_unknown _ _ _ HS Hu Hg) Hm') as HH. cbn [rp q_hot] in HH. rewrite rp_weight in HH. exact HH.
Qed.
Lemma r_start p k q k0 st G : S k → start_load p k q k0 st → gh (q_ghosts p) G → ∃ G', start_load (P:=P') (rp p G) k (rp q G') k0 st ∧ gh (q_ghosts q) G'.
Proof.
  intros HS H Hg. destruct H as [k0 st Hl|q Hq|Hu].
  - exists G. split; [|done]. apply load_again. by apply r_loading.
  - destruct (r_ghost _ _ _ _ HS Hq Hg) as (G' & H' & Hg'). exists G'. split; [|done]. exact (load_ghost (P:=P') _ _ _ H').
  - exists G. split; [|done]. exact (load_new (P:=P') _ _ (r_unknown _ _ _ HS Hu Hg)).
Qed.
Lemma r_filling lim n p l k st v q l' G : KS S p → S k → filling lim n p l k st v q l' → gh (q_ghosts p) G →
  ∃ G', filling (P:=P') lim n (rp p G) (rl l) k st v (rp q G') (rl l') ∧ gh (q_ghosts q) G'.
Proof.
  intros HP HS H Hg. destruct H as [l1 v1 Hs Ht|l1 v1 q q1 l' Hs Ht Hq Hm]; apply r_shown_eq in Hs.
  - exists G. split; [|done]. rewrite <-rl_evict. exact (fill_refused (P:=P') lim n (rp p G) (rl l) k st v _ _ Hs Ht).
  - assert (gh (q_ghosts q1) G) as Hg1 by (by rewrite Hq, back_ghosts).
    assert (KS S q1) as HP1 by (rewrite Hq; by apply KS_back).
    assert (rp q1 G = to_back (put_load (rp p G) k None)
      (Res (P:=P') k v1 (if (tweight (q_hot (rp p G)) + tweight (q_cold (rp p G)) + weight P' k v1 <=? lm_capacity lim)%N then Hot else st) n)) as Hq'.
    { cbn [rp q_hot q_cold]. rewrite !rp_weight, Hq, rp_back. done. }
    destruct (weight P k v1 =? 0)%N eqn:Ew.
    + destruct Hm as [-> ->]. exists G. split; [|done]. eapply (fill_in (P:=P') lim n (rp p G) (rl l) k st v _ _ _ _ _ Hs Ht Hq').
      change (weight P' k v1) with (weight P k v1). by rewrite Ew.
    + destruct (r_room _ _ _ _ _ _ Hm HP1 G Hg1) as (G' & Hm' & Hg'). exists G'. split; [|done].
      eapply (fill_in (P:=P') lim n (rp p G) (rl l) k st v _ _ _ _ _ Hs Ht Hq'). change (weight P' k v1) with (weight P k v1). by rewrite Ew.
Qed.
Lemma r_writing p k f o q G : writing p k f o q → writing (P:=P') (rp p G) k f o (rp q G) ∧ q_ghosts q = q_ghosts p.
Proof.
  destruct 1 as [x q Hx Ht|Hn].
  - apply (r_turn _ _ _ _ G) in Ht as [Ht Hq]. split; [|done]. exact (writing_item (P:=P') _ _ f (ri x) _ (r_item _ _ _ _ Hx) Ht).
  - split; [|done]. exact (writing_none (P:=P') _ _ f (r_no_item _ _ _ Hn)).
Qed.
Lemma r_reading p k o G : reading p k o → reading (P:=P') (rp p G) k o.
Proof. destruct 1 as [x Hx|Hn]; [exact (reading_item (P:=P') _ _ (ri x) (r_item _ _ _ _ Hx))|exact (reading_none (P:=P') _ _ (r_no_item _ _ _ Hn))]. Qed.
Lemma r_hooks l : hooks (rl l) = re_lev <$> hooks l.
Proof. unfold hooks, rl. cbn [llog]. rewrite <-!list_fmap_compose. done. Qed.
Lemma r_finished (rs : RS P) l wl r b : finished (P:=P') rs (rl l) wl (re_ret r) b = re_out (finished rs l wl r b).
Proof. unfold finished, re_out. cbn [o_ret o_log o_called o_state]. rewrite r_hooks, fmap_cons, fmap_app. by destruct wl. Qed.
Lemma r_ends lim p rs k st g o q G : KS S p → S k → guard_ends lim p rs k st g o q → gh (q_ghosts p) G →
  ∃ G', guard_ends (P:=P') lim (rp p G) rs k st (re_guard g) (re_out o) (rp q G') ∧ gh (q_ghosts q) G'.
Proof.
  intros HP HS H Hg. destruct H as [v wl q l' H| |].
  - destruct (r_filling _ _ _ _ _ _ _ _ _ _ HP HS H Hg) as (G' & H' & Hg'). exists G'. split; [|done].
    rewrite <-r_finished. exact (guard_insert (P:=P') lim (rp p G) rs k st v wl _ _ H').
  - exists G. split; [|done]. exact (guard_drop (P:=P') lim (rp p G) rs k st).
  - exists G. split; [|done]. exact (guard_forget (P:=P') lim (rp p G) rs k st).
Qed.
Lemma r_out_load (rs : RS P) l (o : option (V P)) : re_out (Out (RVal o) (LBegin rs :: hooks l ++ [LEnd (lrs l)]) true None) =
  Out (P:=P') (RVal (P:=P') o) (LBegin (P:=P') rs :: hooks (rl l) ++ [LEnd (P:=P') (lrs (rl l))]) true None.
Proof. unfold re_out. cbn [o_ret o_log o_called o_state]. by rewrite r_hooks, fmap_cons, fmap_app. Qed.
Lemma r_filter (f : K P → V P → bool) (L : list (resident P)) :
  List.filter (λ x : resident P', f (r_key x) (r_val x)) (ri <$> L) = ri <$> List.filter (λ x : resident P, f (r_key x) (r_val x)) L.
Proof. induction L as [|x L IH]; [done|]. cbn. destruct (f (r_key x) (r_val x)); cbn; [f_equal|]; exact IH. Qed.
Lemma r_pairs (L : list (resident P)) :
  map (λ x : resident P', (r_key x, r_val x)) (ri <$> L) = map (λ x : resident P, (r_key x, r_val x)) L.
Proof. induction L as [|x L IH]; [reflexivity|]. rewrite fmap_cons, !map_cons, IH. reflexivity. Qed.
Lemma gh_nil : gh [] [].
Proof. exists []. split; [constructor|done]. Qed.
Lemma start_in p k q k0 st : W S p → S k → start_load p k q k0 st → KS S q ∧ S k0.
Proof.
  intros HW HS H. destruct (start_load_W LW S NC _ _ _ _ _ HW HS H) as [HW1 Hl]. split; [exact (W_in _ _ HW1)|].
  exact (W_ld _ _ HW1 _ _ _ (proj2 Hl)).
Qed.
Lemma r_pstep lim p m o q G : W S p → (∀ k, names m = Some k → S k) → pstep lim p m o q → gh (q_ghosts p) G →
  ∃ G', pstep (P:=P') lim (rp p G) (re_cmd m) (re_out o) (rp q G') ∧ gh (q_ghosts q) G'.
Proof.
  intros HW HN H Hg. pose proof (W_in _ _ HW) as HP. destruct H as [k b Hb|k o Hr|k x q Hx Ht|k Hn|k f x q Hx Ht|k f Hn|k f o q Hw|k x q Hx Hl|k k0 st Hl|k q Hq|k Hu
    |rs k v soft wl q l' Hi|rs k v soft wl q l' kv Hi|rs k v wl q l' Hi|f keep| |L HL| |rs k w x q Hx Ht|rs k q k0 st Hs|rs k v q1 k0 st q l' o Hs Hf Hr
    |rs k w f x q Hx Ht|rs k f q k0 st Hs|rs k v f q1 k0 st q2 l' o q Hs Hf Hw|rs k g x q Hx Ht|rs k g q1 k0 st o q Hs He|rs k f g x q Hx Ht|rs k f g q1 k0 st o q Hs He].
  - exists G. split; [|done]. apply (p_contains (P:=P')). rewrite Hb. split.
    + intros [x Hx]. exists (ri x). by apply r_item.
    + intros [x' [Hx Hk]]. rewrite rp_items in Hx. apply elem_of_list_fmap in Hx as (x & -> & Hx). by exists x.
  - exists G. split; [|done]. exact (p_peek (P:=P') _ _ _ _ (r_reading _ _ _ _ Hr)).
  - apply (r_turn _ _ _ _ G) in Ht as [Ht Hq]. exists G. rewrite Hq. split; [|done]. exact (p_hit (P:=P') lim _ k (ri x) _ (r_item _ _ _ _ Hx) Ht).
  - exists G. split; [|done]. exact (p_miss (P:=P') lim _ k (r_no_item _ _ _ Hn)).
  - apply (r_turn _ _ _ _ G) in Ht as [Ht Hq]. exists G. rewrite Hq. split; [|done]. exact (p_hit_mut (P:=P') lim _ k f (ri x) _ (r_item _ _ _ _ Hx) Ht).
  - exists G. split; [|done]. exact (p_miss_mut (P:=P') lim _ k f (r_no_item _ _ _ Hn)).
  - apply (r_writing _ _ _ _ _ G) in Hw as [Hw Hq]. exists G. rewrite Hq. split; [|done]. exact (p_peek_mut (P:=P') lim _ k f o _ Hw).
  - apply (r_leave _ _ _ G) in Hl as [Hl Hq]. exists G. rewrite Hq. split; [|done]. exact (p_remove_item (P:=P') lim _ k (ri x) _ (r_item _ _ _ _ Hx) Hl).
  - exists G. split; [|done]. exact (p_remove_load (P:=P') lim _ k k0 st (r_loading _ _ _ _ _ Hl)).
  - destruct (r_ghost _ _ _ _ (HN _ eq_refl) Hq Hg) as (G' & H' & Hg'). exists G'. split; [|done]. exact (p_remove_ghost (P:=P') lim _ k _ H').
  - exists G. split; [|done]. exact (p_remove_none (P:=P') lim _ k (r_unknown _ _ _ (HN _ eq_refl) Hu Hg)).
  - destruct (r_inserting _ _ _ _ _ _ _ _ _ _ HP (HN _ eq_refl) Hi Hg) as (G' & H' & Hg'). exists G'. split; [|done]. rewrite <-r_finished. exact (p_replace (P:=P') lim _ rs k v soft wl _ _ H').
  - destruct (r_inserting _ _ _ _ _ _ _ _ _ _ HP (HN _ eq_refl) Hi Hg) as (G' & H' & Hg'). exists G'. split; [|done].
    pose proof (p_replace_failed (P:=P') lim _ rs k v soft wl _ _ kv H') as HH. rewrite r_hooks in HH. exact HH.
  - destruct (r_inserting _ _ _ _ _ _ _ _ _ _ HP (HN _ eq_refl) Hi Hg) as (G' & H' & Hg'). exists G'. split; [|done]. rewrite <-r_finished. exact (p_insert (P:=P') lim _ rs k v wl _ _ H').
  - exists G. split; [|done]. pose proof (p_retain (P:=P') lim (rp p G) f) as HH. cbn [rp q_hot q_cold q_idle] in HH. rewrite !r_filter in HH. exact HH.
  - exists []. split; [exact (p_clear (P:=P') lim _)|by apply gh_nil].
  - exists []. split; [|by apply gh_nil]. apply (p_drain (P:=P') lim (rp p G) L). rewrite rp_items, r_pairs. exact HL.
  - exists G. split; [|done]. exact (p_reserve (P:=P') lim _).
  - apply (r_turn _ _ _ _ G) in Ht as [Ht Hq]. exists G. rewrite Hq. split; [|done]. exact (p_load_hit (P:=P') lim _ rs k w (ri x) _ (r_item _ _ _ _ Hx) Ht).
  - destruct (start_in _ _ _ _ _ HW (HN _ eq_refl) Hs) as [HP1 HS1]. destruct (r_start _ _ _ _ _ _ (HN _ eq_refl) Hs Hg) as (G' & H' & Hg'). exists G'. split; [|done]. exact (p_load_failed (P:=P') lim _ rs k _ k0 st H').
  - destruct (start_in _ _ _ _ _ HW (HN _ eq_refl) Hs) as [HP1 HS1]. destruct (r_start _ _ _ _ _ _ (HN _ eq_refl) Hs Hg) as (G1 & H1 & Hg1). destruct (r_filling _ _ _ _ _ _ _ _ _ _ HP1 HS1 Hf Hg1) as (G' & H' & Hg'). exists G'. split; [|done].
    rewrite r_out_load. exact (p_load (P:=P') lim _ rs k v _ k0 st _ _ o H1 H' (r_reading _ _ _ _ Hr)).
  - apply (r_turn _ _ _ _ G) in Ht as [Ht Hq]. exists G. rewrite Hq. split; [|done]. exact (p_load_hit_mut (P:=P') lim _ rs k w f (ri x) _ (r_item _ _ _ _ Hx) Ht).
  - destruct (start_in _ _ _ _ _ HW (HN _ eq_refl) Hs) as [HP1 HS1]. destruct (r_start _ _ _ _ _ _ (HN _ eq_refl) Hs Hg) as (G' & H' & Hg'). exists G'. split; [|done]. exact (p_load_failed_mut (P:=P') lim _ rs k f _ k0 st H').
  - destruct (start_in _ _ _ _ _ HW (HN _ eq_refl) Hs) as [HP1 HS1]. destruct (r_start _ _ _ _ _ _ (HN _ eq_refl) Hs Hg) as (G1 & H1 & Hg1). destruct (r_filling _ _ _ _ _ _ _ _ _ _ HP1 HS1 Hf Hg1) as (G' & H' & Hg').
    apply (r_writing _ _ _ _ _ G') in Hw as [Hw Hq]. exists G'. rewrite Hq. split; [|done].
    rewrite r_out_load. exact (p_load_mut (P:=P') lim _ rs k v f _ k0 st _ _ o _ H1 H' Hw).
  - apply (r_turn _ _ _ _ G) in Ht as [Ht Hq]. exists G. rewrite Hq. split; [|done]. exact (p_guard_hit (P:=P') lim _ rs k (re_guard g) (ri x) _ (r_item _ _ _ _ Hx) Ht).
  - destruct (start_in _ _ _ _ _ HW (HN _ eq_refl) Hs) as [HP1 HS1]. destruct (r_start _ _ _ _ _ _ (HN _ eq_refl) Hs Hg) as (G1 & H1 & Hg1). destruct (r_ends _ _ _ _ _ _ _ _ _ HP1 HS1 He Hg1) as (G' & H' & Hg'). exists G'. split; [|done].
    exact (p_guard (P:=P') lim _ rs k _ _ k0 st _ _ H1 H').
  - apply (r_turn _ _ _ _ G) in Ht as [Ht Hq]. exists G. rewrite Hq. split; [|done]. exact (p_guard_hit_mut (P:=P') lim _ rs k f (re_guard g) (ri x) _ (r_item _ _ _ _ Hx) Ht).
  - destruct (start_in _ _ _ _ _ HW (HN _ eq_refl) Hs) as [HP1 HS1]. destruct (r_start _ _ _ _ _ _ (HN _ eq_refl) Hs Hg) as (G1 & H1 & Hg1). destruct (r_ends _ _ _ _ _ _ _ _ _ HP1 HS1 He Hg1) as (G' & H' & Hg'). exists G'. split; [|done].
    exact (p_guard_mut (P:=P') lim _ rs k f _ _ k0 st _ _ H1 H').
Qed.
Lemma r_psteps lim p ms os q : psteps lim p ms os q → W S p → (∀ k, k ∈ omap names ms → S k) → ∀ G, gh (q_ghosts p) G →
  ∃ G', psteps (P:=P') lim (rp p G) (re_cmd <$> ms) (re_out <$> os) (rp q G') ∧ gh (q_ghosts q) G'.
Proof.
  induction 1 as [p|p c o q ms os q' H Hs IH]; intros HW HN G Hg.
  - exists G. split; [constructor|done].
  - assert (∀ k, names c = Some k → S k) as HSc by (intros k Hk; apply HN; apply elem_of_list_omap; exists c; split; [left|done]).
    destruct (r_pstep _ _ _ _ _ _ HW HSc H Hg) as (G1 & H1 & Hg1).
    destruct (IH (pstep_W LW S NC _ _ _ _ _ HW HSc H) (λ k Hk, HN k (omap_later _ _ _ Hk)) G1 Hg1) as (G' & H' & Hg'). exists G'. split; [|done]. by econstructor.
Qed.
Lemma re_names (ms : list (cmd P)) : omap names (re_cmd (h:=h) (pr:=pr) (ti:=ti) (gr:=gr) <$> ms) = (omap names ms : list (K P)).
Proof. induction ms as [|m ms IH]; [done|]. cbn in *. rewrite IH. by destruct m. Qed.
End rehashproofs.
