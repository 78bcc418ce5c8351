(* The machine of Policy.v does not depend on what the lifecycle does beside putting values. *)
From Verif Require Export Listen PolicyStep PolicyDet.

Section listenproofs.
Context {P : Params} {R : Type} {b : R → K P → V P → R * V P} {o : R → K P → V P → R}.
Notation P' := (listened P R b o).
Context (LW : Lawful P) (SV : same_values P R b).
Notation item := (resident P).
Implicit Types (k : K P) (v : V P) (x y : item) (A B L : list item) (l : lcs P) (m : lcs P') (p q : policy P) (lim : limits).

Definition ji x : resident P' := Res (P:=P') (r_key x) (r_val x) (r_state x) (r_ref x).
Definition lr l m : Prop := llog m = li_event <$> llog l.
Definition jp p : policy P' := Pol (P:=P') (ji <$> q_hot p) (ji <$> q_cold p) (ji <$> q_idle p) (q_ghosts p) (q_loads p).

Lemma jp_list p st : q_list (jp p) st = ji <$> q_list p st.
Proof. by destruct st. Qed.
Lemma jp_put p st L : jp (put_list p st L) = put_list (jp p) st (ji <$> L).
Proof. by destruct st. Qed.
Lemma jp_back p x : jp (to_back p x) = to_back (jp p) (ji x).
Proof.
  unfold to_back. change (weightless (ji x)) with (weightless x). destruct (weightless x).
  - unfold put_idle, jp. simpl. by rewrite fmap_app.
  - rewrite jp_put. change (r_state (ji x)) with (r_state x). by rewrite jp_list, fmap_app.
Qed.
Lemma jp_items p : q_items (jp p) = ji <$> q_items p.
Proof. unfold q_items. by rewrite !fmap_app. Qed.
Lemma jp_weight L : tweight (ji <$> L) = tweight L.
Proof. induction L as [|x L IH]; [done|]. unfold tweight in *. cbn [fmap list_fmap foldr]. rewrite <-IH. done. Qed.
Lemma l_before l k v l1 v1 : call_before l k v = (l1, v1) → ∀ m, lr l m → ∃ m1, call_before (P:=P') m k v = (m1, v1) ∧ lr l1 m1.
Proof.
  intros H m Hl. unfold call_before in *. pose proof (SV (lrs l) (lrs m) k v) as Hv. change (before_evict P' (lrs m) k v) with (b (lrs m) k v).
  destruct (before_evict P (lrs l) k v) as [rs' v']. destruct (b (lrs m) k v) as [r' w']. cbn in Hv. subst w'.
  injection H as <- <-. eexists. split; [reflexivity|]. unfold lr in *. cbn. by rewrite Hl, fmap_app.
Qed.
Lemma l_evict l m k v : lr l m → lr (call_evict l k v) (call_evict (P:=P') m k v).
Proof. unfold lr, call_evict. simpl. intros ->. by rewrite fmap_app. Qed.

Lemma j_clock seen A B L z : clock seen A B L z → clock seen (ji <$> A) (ji <$> B) (ji <$> L) (ji <$> z).
Proof.
  induction 1 as [seen A L z HA H IH|A x Hp|seen A x B L z Hp Hs H IH|seen A x B L z Hp Hr H IH|seen A x B Hp Hr].
  - apply clock_round; [by destruct A|done].
  - rewrite fmap_app. by apply (clock_give_up (P:=P') (ji <$> A) (ji x)).
  - rewrite fmap_app in IH. apply (clock_pinned (P:=P') seen (ji <$> A) (ji x)); [done| |done].
    destruct Hs as [?|Hs]; [by left|]. right. by destruct B.
  - rewrite fmap_app in IH. by apply (clock_used (P:=P') seen (ji <$> A) (ji x)).
  - rewrite fmap_app. by apply (clock_take (P:=P') seen (ji <$> A) (ji x)).
Qed.
Lemma j_drop_hot p l x q l' : drop_hot p l x = (q, l') → ∀ m, lr l m → ∃ m', drop_hot (jp p) m (ji x) = (jp q, m') ∧ lr l' m'.
Proof.
  unfold drop_hot. intros H m Hl. change (r_key (ji x)) with (r_key x). change (r_val (ji x)) with (r_val x).
  destruct (call_before l (r_key x) (r_val x)) as [l1 v1] eqn:E. destruct (l_before _ _ _ _ _ E _ Hl) as (m1 & -> & Hl1).
  change (weightless (put_val (ji x) v1)) with (weightless (put_val x v1)).
  destruct (weightless (put_val x v1)); injection H as <- <-; eexists; (split; [|by try apply l_evict]); f_equal.
  unfold put_idle, jp. simpl. by rewrite fmap_app.
Qed.
Lemma j_drop_cold lim p l x q l' : drop_cold lim p l x = (q, l') → ∀ m, lr l m → ∃ m', drop_cold lim (jp p) m (ji x) = (jp q, m') ∧ lr l' m'.
Proof.
  unfold drop_cold. intros H m Hl. change (r_key (ji x)) with (r_key x). change (r_val (ji x)) with (r_val x).
  destruct (call_before l (r_key x) (r_val x)) as [l1 v1] eqn:E. destruct (l_before _ _ _ _ _ E _ Hl) as (m1 & -> & Hl1).
  change (weightless (put_val (ji x) v1)) with (weightless (put_val x v1)).
  destruct (weightless (put_val x v1)); injection H as <- <-; eexists; (split; [|by try apply l_evict]); f_equal.
  unfold put_idle, jp. simpl. by rewrite fmap_app.
Qed.
Lemma j_hot_hand p l q l' z : hot_hand p l q l' z → ∀ m, lr l m → ∃ m', hot_hand (jp p) m (jp q) m' z ∧ lr l' m'.
Proof.
  destruct 1 as [H|L Hn H|L x q l' H Hd]; intros m Hl.
  - exists m. split; [|done]. apply hot_none. cbn. by rewrite H.
  - exists m. split; [|done]. apply j_clock in H. apply (hot_stuck (P:=P') (jp p) m (ji <$> L)); [|done]. cbn. by destruct (q_hot p).
  - apply j_clock in H. destruct (j_drop_hot _ _ _ _ _ Hd _ Hl) as (m' & Hd' & Hl'). exists m'. split; [|done].
    by apply (hot_out (P:=P') (jp p) m (ji <$> L) (ji x)).
Qed.
Lemma j_trim lim p l q l' : trim lim p l q l' → ∀ m, lr l m → ∃ m', trim lim (jp p) m (jp q) m' ∧ lr l' m'.
Proof.
  induction 1 as [p l Hle|p l q l' Hlt H|p l q1 l1 q l' Hlt H Ht IH]; intros m Hl.
  - exists m. split; [|done]. apply trim_done. cbn [jp q_hot]. by rewrite jp_weight.
  - destruct (j_hot_hand _ _ _ _ _ H _ Hl) as (m' & H' & Hl'). exists m'. split; [|done]. apply trim_stuck; [|done]. cbn [jp q_hot]. by rewrite jp_weight.
  - destruct (j_hot_hand _ _ _ _ _ H _ Hl) as (m1 & H' & Hl1). destruct (IH _ Hl1) as (m' & H2 & Hl'). exists m'. split; [|done].
    eapply trim_more; [|done..]. cbn [jp q_hot]. by rewrite jp_weight.
Qed.
Lemma j_skipped A : Forall skipped A → Forall (skipped (P:=P')) (ji <$> A).
Proof. intros H. apply Forall_fmap. exact H. Qed.
Lemma j_cold_hand lim p l q l' z : cold_hand lim p l q l' z → ∀ m, lr l m → ∃ m', cold_hand lim (jp p) m (jp q) m' z ∧ lr l' m'.
Proof.
  intros H m Hl. destruct H as [q l' z Hs H|A x B q l' HL HA Hr H|A x B q l' HL HA Hr Hp H].
  - destruct (j_hot_hand _ _ _ _ _ H _ Hl) as (m' & H' & Hl'). exists m'. split; [|done]. apply cold_none; [by apply j_skipped|done].
  - destruct (j_trim _ _ _ _ _ H _ Hl) as (m' & H' & Hl'). exists m'. split; [|done].
    rewrite jp_back in H'. eapply (cold_up (P:=P') lim (jp p) m (ji <$> A) (ji x) (ji <$> B)); [|by apply j_skipped|done|].
    + cbn [jp q_cold]. by rewrite HL, fmap_app.
    + rewrite <-fmap_app. exact H'.
  - destruct (j_drop_cold _ _ _ _ _ _ H _ Hl) as (m' & H' & Hl'). exists m'. split; [|done].
    eapply (cold_out (P:=P') lim (jp p) m (ji <$> A) (ji x) (ji <$> B)); [|by apply j_skipped|done|done|].
    + cbn [jp q_cold]. by rewrite HL, fmap_app.
    + rewrite <-fmap_app. exact H'.
Qed.
Lemma j_room lim n p l q l' : make_room lim n p l q l' → ∀ m, lr l m → ∃ m', make_room lim n (jp p) m (jp q) m' ∧ lr l' m'.
Proof.
  induction 1 as [p l Hle|p l q l' Hlt H|p l q1 l1 q l' Hlt H Ht IH]; intros m Hl.
  - exists m. split; [|done]. apply room_done. cbn [jp q_hot q_cold]. by rewrite !jp_weight.
  - destruct (j_cold_hand _ _ _ _ _ _ H _ Hl) as (m' & H' & Hl'). exists m'. split; [|done]. apply room_stuck; [|done]. cbn [jp q_hot q_cold]. by rewrite !jp_weight.
  - destruct (j_cold_hand _ _ _ _ _ _ H _ Hl) as (m1 & H' & Hl1). destruct (IH _ Hl1) as (m' & H2 & Hl'). exists m'. split; [|done].
    eapply room_more; [|done..]. cbn [jp q_hot q_cold]. by rewrite !jp_weight.
Qed.
Lemma j_leave p x q : leave p x q → leave (jp p) (ji x) (jp q).
Proof.
  destruct 1 as [st A B H|A B H].
  - rewrite jp_put, fmap_app. apply leave_list. by rewrite jp_list, H, fmap_app.
  - change (jp (put_idle p (A ++ B))) with (put_idle (jp p) (ji <$> (A ++ B))). rewrite fmap_app. apply leave_idle. cbn. by rewrite H, fmap_app.
Qed.
Lemma j_turn p x y q : turn p x y q → turn (jp p) (ji x) (ji y) (jp q).
Proof.
  destruct 1 as [st A B H Hw|A B H Hw|st A B H Hw|A B H Hw].
  - rewrite jp_put, fmap_app. apply turn_list; [|done]. by rewrite jp_list, H, fmap_app.
  - change (jp (put_idle p (A ++ y :: B))) with (put_idle (jp p) (ji <$> (A ++ y :: B))). rewrite fmap_app. apply turn_idle; [|done]. cbn. by rewrite H, fmap_app.
  - assert (jp (put_idle (put_list p st (B ++ A)) (q_idle p ++ [y])) = put_idle (put_list (jp p) st ((ji <$> B) ++ (ji <$> A))) (q_idle (jp p) ++ [ji y])) as ->.
    { destruct st; unfold put_idle, jp; cbn; by rewrite !fmap_app. }
    apply turn_lost; [|done]. by rewrite jp_list, H, fmap_app.
  - rewrite jp_back.
    change (jp (put_idle p (A ++ B))) with (put_idle (jp p) (ji <$> (A ++ B))). rewrite fmap_app. apply turn_gained; [|done]. cbn. by rewrite H, fmap_app.
Qed.
Lemma j_item p k x : item_of p k x → item_of (jp p) k (ji x).
Proof. intros [H1 H2]. split; [|done]. rewrite jp_items. by apply elem_of_list_fmap_1. Qed.
Lemma j_no_item p k : no_item p k → no_item (jp p) k.
Proof. intros H x'. rewrite jp_items. intros (x & -> & Hx)%elem_of_list_fmap. by apply (H x). Qed.
Lemma j_loading p k k0 st : loading p k k0 st → loading (jp p) k k0 st.
Proof. intros [H1 H2]. split; [by apply j_no_item|done]. Qed.
Lemma j_ghost p k q : ghost_of p k q → ghost_of (jp p) k (jp q).
Proof. intros (H1 & H2 & G1 & G2 & H3 & ->). split_and!; [by apply j_no_item|done|]. by exists G1, G2. Qed.
Lemma j_unknown p k : unknown p k → unknown (jp p) k.
Proof. intros (H1 & H2 & H3). split_and!; [by apply j_no_item|done|done]. Qed.
Lemma j_shown lim l k v l1 v1 : shown lim l k v = (l1, v1) → ∀ m, lr l m → ∃ m1, shown (P:=P') lim m k v = (m1, v1) ∧ lr l1 m1.
Proof.
  unfold shown. intros H m Hl. change (big (P:=P') lim k v) with (big (P:=P) lim k v). destruct (big lim k v); [by eapply l_before|].
  injection H as <- <-. by exists m.
Qed.
Lemma j_inserting lim p l k v strat q l' z : inserting lim p l k v strat q l' z → ∀ m, lr l m →
  ∃ m', inserting (P:=P') lim (jp p) m k v strat (jp q) m' z ∧ lr l' m'.
Proof.
  intros H m Hm0. destruct H as [strat l1 v1 x q Hs Ht Hx Hl|strat l1 v1 Hs Ht Hn|strat l1 v1 x q1 q l' Hs Ht Hx Htu Hm|strat l1 v1 Hs Ht Hn Hr
    |l1 v1 k0 st q l' Hs Ht Hl Hm|l1 v1 q1 q l' Hs Ht Hgo Hm|l1 v1 q l' Hs Ht Hu Hm]; destruct (j_shown _ _ _ _ _ _ Hs _ Hm0) as (m1 & Hs' & Hl1).
  - eexists. split; [exact (insert_refused_old (P:=P') lim (jp p) m k v strat _ _ (ji x) (jp q) Hs' Ht (j_item _ _ _ Hx) (j_leave _ _ _ Hl))|].
    destruct (is_replace strat); [by apply (l_evict l1 m1)|by apply (l_evict (call_evict l1 (r_key x) (r_val x))), (l_evict l1 m1)].
  - eexists. split; [exact (insert_refused_new (P:=P') lim (jp p) m k v strat _ _ Hs' Ht (j_no_item _ _ Hn))|].
    destruct (is_replace strat); [done|by apply (l_evict l1 m1)].
  - destruct (j_room _ _ _ _ _ _ Hm _ (l_evict _ _ (r_key x) (r_val x) Hl1)) as (m' & Hm' & Hl'). exists m'. split; [|done].
    exact (insert_over (P:=P') lim (jp p) m k v strat _ _ (ji x) _ _ _ Hs' Ht (j_item _ _ _ Hx) (j_turn _ _ _ _ Htu) Hm').
  - exists m1. split; [|done]. exact (insert_nothing (P:=P') lim (jp p) m k v strat _ _ Hs' Ht (j_no_item _ _ Hn) Hr).
  - destruct (j_room _ _ _ _ _ _ Hm _ Hl1) as (m' & Hm' & Hl'). exists m'. split; [|done]. rewrite jp_back in Hm'.
    exact (insert_loading (P:=P') lim (jp p) m k v _ _ k0 st _ _ Hs' Ht (j_loading _ _ _ _ Hl) Hm').
  - destruct (j_room _ _ _ _ _ _ Hm _ Hl1) as (m' & Hm' & Hl'). exists m'. split; [|done]. rewrite jp_back in Hm'.
    exact (insert_ghost (P:=P') lim (jp p) m k v _ _ _ _ _ Hs' Ht (j_ghost _ _ _ Hgo) Hm').
  - destruct (j_room _ _ _ _ _ _ Hm _ Hl1) as (m' & Hm' & Hl'). exists m'. split; [|done]. rewrite jp_back.
    pose proof (insert_new (P:=P') lim (jp p) m k v _ _ _ _ Hs' Ht (j_unknown _ _ Hu) Hm') as HH. cbn [jp q_hot] in HH. rewrite jp_weight in HH. exact HH.
Qed.
Lemma j_start p k q k0 st : start_load p k q k0 st → start_load (P:=P') (jp p) k (jp q) k0 st.
Proof.
  intros H. destruct H as [k0 st Hl|q Hq|Hu].
  - apply load_again. by apply j_loading.
  - exact (load_ghost (P:=P') _ _ _ (j_ghost _ _ _ Hq)).
  - exact (load_new (P:=P') _ _ (j_unknown _ _ Hu)).
Qed.
Lemma j_filling lim n p l k st v q l' : filling lim n p l k st v q l' → ∀ m, lr l m →
  ∃ m', filling (P:=P') lim n (jp p) m k st v (jp q) m' ∧ lr l' m'.
Proof.
  intros H m Hm0. destruct H as [l1 v1 Hs Ht|l1 v1 q q1 l' Hs Ht Hq Hm]; destruct (j_shown _ _ _ _ _ _ Hs _ Hm0) as (m1 & Hs' & Hl1).
  - eexists. split; [exact (fill_refused (P:=P') lim n (jp p) m k st v _ _ Hs' Ht)|]. by apply (l_evict l1 m1).
  - assert (jp q1 = to_back (put_load (jp p) k None)
      (Res (P:=P') k v1 (if (tweight (q_hot (jp p)) + tweight (q_cold (jp p)) + weight P' k v1 <=? lm_capacity lim)%N then Hot else st) n)) as Hq'.
    { cbn [jp q_hot q_cold]. rewrite !jp_weight, Hq, jp_back. done. }
    destruct (weight P k v1 =? 0)%N eqn:Ew.
    + destruct Hm as [-> ->]. exists m1. split; [|done]. eapply (fill_in (P:=P') lim n (jp p) m k st v _ _ _ _ _ Hs' Ht Hq').
      change (weight P' k v1) with (weight P k v1). by rewrite Ew.
    + destruct (j_room _ _ _ _ _ _ Hm _ Hl1) as (m' & Hm' & Hl'). exists m'. split; [|done].
      eapply (fill_in (P:=P') lim n (jp p) m k st v _ _ _ _ _ Hs' Ht Hq'). change (weight P' k v1) with (weight P k v1). by rewrite Ew.
Qed.
Lemma j_writing p k f z q : writing p k f z q → writing (P:=P') (jp p) k f z (jp q).
Proof.
  destruct 1 as [x q Hx Ht|Hn].
  - exact (writing_item (P:=P') _ _ f (ji x) _ (j_item _ _ _ Hx) (j_turn _ _ _ _ Ht)).
  - exact (writing_none (P:=P') _ _ f (j_no_item _ _ Hn)).
Qed.
Lemma j_reading p k z : reading p k z → reading (P:=P') (jp p) k z.
Proof. destruct 1 as [x Hx|Hn]; [exact (reading_item (P:=P') _ _ (ji x) (j_item _ _ _ Hx))|exact (reading_none (P:=P') _ _ (j_no_item _ _ Hn))]. Qed.

Lemma heard_hooks {Q : Params} (l : lcs Q) : heard (hooks l) = llog l.
Proof. unfold heard, hooks. induction (llog l) as [|e L IH]; [done|]. cbn. f_equal. exact IH. Qed.
Lemma heard_app {Q : Params} (L L' : list (lev Q)) : heard (L ++ L') = heard L ++ heard L'.
Proof. unfold heard. apply omap_app. Qed.
Lemma ret_same (r : Unsync.ret P) : match li_ret (R:=R) (b:=b) (o:=o) r, li_ret (R:=R) (b:=b) (o:=o) r with RItems L, RItems L' => L' ≡ₚ L | r, r' => r' = r end.
Proof. destruct r; cbn; reflexivity. Qed.
Lemma same_out_log l m (rs : RS P) (r : R) (L : list (lev P)) (L' : list (lev P')) c z z' (u : Unsync.ret P) : lr l m → heard L = [] → heard L' = [] →
  same_result (Out u (LBegin rs :: hooks l ++ L) c z) (Out (P:=P') (li_ret u) (LBegin (P:=P') r :: hooks m ++ L') c z').
Proof.
  intros Hl HL HL'. split_and!; [|done|apply ret_same]. cbn [o_log].
  change (heard (hooks m ++ L') = li_event <$> heard (hooks l ++ L)). by rewrite !heard_app, !heard_hooks, HL, HL', !app_nil_r.
Qed.
Lemma same_finished l m (rs : RS P) (r : R) wl u c : lr l m → same_result (finished rs l wl u c) (finished (P:=P') r m wl (li_ret u) c).
Proof. intros Hl. unfold finished. destruct wl; by apply same_out_log. Qed.
Lemma same_plain (u : Unsync.ret P) : same_result (plain u) (plain (P:=P') (li_ret u)).
Proof. split_and!; [done|done|apply ret_same]. Qed.
Lemma lr_start (rs : RS P) (r : R) : lr (Lcs rs []) (Lcs (P:=P') r []).
Proof. done. Qed.
Lemma j_ends lim p rs k st g z q r : guard_ends lim p rs k st g z q →
  ∃ z', guard_ends (P:=P') lim (jp p) r k st (li_guard g) z' (jp q) ∧ same_result z z'.
Proof.
  intros H. destruct H as [v wl q l' H| |].
  - destruct (j_filling _ _ _ _ _ _ _ _ _ H _ (lr_start rs r)) as (m' & H' & Hl'). eexists.
    split; [exact (guard_insert (P:=P') lim (jp p) r k st v wl _ _ H')|]. by apply (same_finished l' m' rs r wl RGuard).
  - eexists. split; [exact (guard_drop (P:=P') lim (jp p) r k st)|]. apply (same_plain RGuard).
  - eexists. split; [exact (guard_forget (P:=P') lim (jp p) r k st)|]. apply (same_plain RGuard).
Qed.
Lemma j_filter (f : K P → V P → bool) (L : list (resident P)) :
  List.filter (λ x : resident P', f (r_key x) (r_val x)) (ji <$> L) = ji <$> List.filter (λ x : resident P, f (r_key x) (r_val x)) L.
Proof. induction L as [|x L IH]; [done|]. cbn. destruct (f (r_key x) (r_val x)); cbn; [f_equal|]; exact IH. Qed.
Lemma j_pairs (L : list (resident P)) :
  map (λ x : resident P', (r_key x, r_val x)) (ji <$> L) = map (λ x : resident P, (r_key x, r_val x)) L.
Proof. induction L as [|x L IH]; [reflexivity|]. rewrite fmap_cons, !map_cons, IH. reflexivity. Qed.
Lemma j_pstep lim p c z q r : pstep lim p c z q → ∃ z', pstep (P:=P') lim (jp p) (with_state r c) z' (jp q) ∧ same_result z z'.
Proof.
  intros H. destruct H as [k w Hb|k z Hr|k x q Hx Ht|k Hn|k f x q Hx Ht|k f Hn|k f z q Hw|k x q Hx Hl|k k0 st Hl|k q Hq|k Hu
    |rs k v soft wl q l' Hi|rs k v soft wl q l' kv Hi|rs k v wl q l' Hi|f keep| |L HL| |rs k w x q Hx Ht|rs k q k0 st Hs|rs k v q1 k0 st q l' z Hs Hf Hr
    |rs k w f x q Hx Ht|rs k f q k0 st Hs|rs k v f q1 k0 st q2 l' z q Hs Hf Hw|rs k g x q Hx Ht|rs k g q1 k0 st z q Hs He|rs k f g x q Hx Ht|rs k f g q1 k0 st z q Hs He].
  - eexists. split; [|apply (same_plain (RBool w))]. apply (p_contains (P:=P')). rewrite Hb. split.
    + intros [x Hx]. exists (ji x). by apply j_item.
    + intros [x' [Hx Hk]]. rewrite jp_items in Hx. apply elem_of_list_fmap in Hx as (x & -> & Hx). by exists x.
  - eexists. split; [exact (p_peek (P:=P') _ _ _ _ (j_reading _ _ _ Hr))|apply (same_plain (RVal z))].
  - eexists. split; [exact (p_hit (P:=P') lim _ k (ji x) _ (j_item _ _ _ Hx) (j_turn _ _ _ _ Ht))|apply (same_plain (RVal (Some (r_val x))))].
  - eexists. split; [exact (p_miss (P:=P') lim _ k (j_no_item _ _ Hn))|apply (same_plain (RVal None))].
  - eexists. split; [exact (p_hit_mut (P:=P') lim _ k f (ji x) _ (j_item _ _ _ Hx) (j_turn _ _ _ _ Ht))|apply (same_plain (RVal (Some (r_val x))))].
  - eexists. split; [exact (p_miss_mut (P:=P') lim _ k f (j_no_item _ _ Hn))|apply (same_plain (RVal None))].
  - eexists. split; [exact (p_peek_mut (P:=P') lim _ k f z _ (j_writing _ _ _ _ _ Hw))|apply (same_plain (RVal z))].
  - eexists. split; [exact (p_remove_item (P:=P') lim _ k (ji x) _ (j_item _ _ _ Hx) (j_leave _ _ _ Hl))|apply (same_plain (RPair (Some (r_key x, r_val x))))].
  - eexists. split; [exact (p_remove_load (P:=P') lim _ k k0 st (j_loading _ _ _ _ Hl))|apply (same_plain (RPair None))].
  - eexists. split; [exact (p_remove_ghost (P:=P') lim _ k _ (j_ghost _ _ _ Hq))|apply (same_plain (RPair None))].
  - eexists. split; [exact (p_remove_none (P:=P') lim _ k (j_unknown _ _ Hu))|apply (same_plain (RPair None))].
  - destruct (j_inserting _ _ _ _ _ _ _ _ _ Hi _ (lr_start rs r)) as (m' & H' & Hl'). eexists.
    split; [exact (p_replace (P:=P') lim _ r k v soft wl _ _ H')|by apply (same_finished l' m' rs r wl (RPair None))].
  - destruct (j_inserting _ _ _ _ _ _ _ _ _ Hi _ (lr_start rs r)) as (m' & H' & Hl'). eexists.
    split; [exact (p_replace_failed (P:=P') lim _ r k v soft wl _ _ kv H')|].
    pose proof (same_out_log l' m' rs r [] [] false None None (RPair (Some kv)) Hl' eq_refl eq_refl) as HH. rewrite !app_nil_r in HH. exact HH.
  - destruct (j_inserting _ _ _ _ _ _ _ _ _ Hi _ (lr_start rs r)) as (m' & H' & Hl'). eexists.
    split; [exact (p_insert (P:=P') lim _ r k v wl _ _ H')|by apply (same_finished l' m' rs r wl RUnit)].
  - eexists. split; [|apply (same_plain RUnit)]. pose proof (p_retain (P:=P') lim (jp p) f) as HH. cbn [jp q_hot q_cold q_idle] in HH. rewrite !j_filter in HH. exact HH.
  - eexists. split; [exact (p_clear (P:=P') lim _)|apply (same_plain RUnit)].
  - eexists. split; [|apply (same_plain (RItems L))]. apply (p_drain (P:=P') lim (jp p) L). rewrite jp_items, j_pairs. exact HL.
  - eexists. split; [exact (p_reserve (P:=P') lim _)|apply (same_plain RUnit)].
  - eexists. split; [exact (p_load_hit (P:=P') lim _ r k w (ji x) _ (j_item _ _ _ Hx) (j_turn _ _ _ _ Ht))|apply (same_plain (RVal (Some (r_val x))))].
  - eexists. split; [exact (p_load_failed (P:=P') lim _ r k _ k0 st (j_start _ _ _ _ _ Hs))|by split_and!].
  - destruct (j_filling _ _ _ _ _ _ _ _ _ Hf _ (lr_start rs r)) as (m' & H' & Hl'). eexists.
    split; [exact (p_load (P:=P') lim _ r k v _ k0 st _ _ z (j_start _ _ _ _ _ Hs) H' (j_reading _ _ _ Hr))|].
    by apply (same_out_log l' m' rs r _ _ true None None (RVal z)).
  - eexists. split; [exact (p_load_hit_mut (P:=P') lim _ r k w f (ji x) _ (j_item _ _ _ Hx) (j_turn _ _ _ _ Ht))|apply (same_plain (RVal (Some (r_val x))))].
  - eexists. split; [exact (p_load_failed_mut (P:=P') lim _ r k f _ k0 st (j_start _ _ _ _ _ Hs))|by split_and!].
  - destruct (j_filling _ _ _ _ _ _ _ _ _ Hf _ (lr_start rs r)) as (m' & H' & Hl'). eexists.
    split; [exact (p_load_mut (P:=P') lim _ r k v f _ k0 st _ _ z _ (j_start _ _ _ _ _ Hs) H' (j_writing _ _ _ _ _ Hw))|].
    by apply (same_out_log l' m' rs r _ _ true None None (RVal z)).
  - eexists. split; [exact (p_guard_hit (P:=P') lim _ r k (li_guard g) (ji x) _ (j_item _ _ _ Hx) (j_turn _ _ _ _ Ht))|apply (same_plain (RVal (Some (r_val x))))].
  - destruct (j_ends _ _ _ _ _ _ _ _ r He) as (z' & H' & Hz). exists z'. split; [|done]. exact (p_guard (P:=P') lim _ r k _ _ k0 st _ _ (j_start _ _ _ _ _ Hs) H').
  - eexists. split; [exact (p_guard_hit_mut (P:=P') lim _ r k f (li_guard g) (ji x) _ (j_item _ _ _ Hx) (j_turn _ _ _ _ Ht))|apply (same_plain (RVal (Some (r_val x))))].
  - destruct (j_ends _ _ _ _ _ _ _ _ r He) as (z' & H' & Hz). exists z'. split; [|done]. exact (p_guard_mut (P:=P') lim _ r k f _ _ k0 st _ _ (j_start _ _ _ _ _ Hs) H').
Qed.
Lemma j_psteps lim p ms zs q : psteps lim p ms zs q → ∀ ms', Forall2 same_call ms ms' →
  ∃ zs', psteps (P:=P') lim (jp p) ms' zs' (jp q) ∧ Forall2 same_result zs zs'.
Proof.
  induction 1 as [p|p c z q ms zs q' H Hs IH]; intros ms' Hm; inversion Hm as [|? ? ? ? [r ->] Hm2]; subst.
  - exists []. split; constructor.
  - destruct (j_pstep _ _ _ _ _ r H) as (z' & H' & Hz). destruct (IH _ Hm2) as (zs' & H2 & Hzs). exists (z' :: zs'). split; [by econstructor|by constructor].
Qed.
Lemma same_names (ms : list (cmd P)) (ms' : list (cmd P')) : Forall2 same_call ms ms' → omap names ms' = (omap names ms : list (K P)).
Proof. induction 1 as [|c c' ms ms' [r ->] _ IH]; [done|]. cbn in *. rewrite IH. by destruct c. Qed.
(* the results of the second cache are determined up to the order of drained items *)
Lemma same_trans (z : out P) (z' z2 : out P') : same_result z z' → same_out z2 z' → same_result z z2.
Proof.
  intros (H1 & H2 & H3) (E1 & E2 & _ & E4). split_and!; [by rewrite <-E1|by rewrite <-E2|].
  destruct (li_ret (o_ret z)), (o_ret z'), (o_ret z2); try discriminate; try congruence. etrans; [|exact H3]. by symmetry.
Qed.
End listenproofs.
Lemma law_listened (P : Params) R b o : Lawful P → Lawful (listened P R b o).
Proof. intros []. by split. Qed.
