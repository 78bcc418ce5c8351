(* What follows from the invariants about loads, waiters and calls. *)
From stdpp Require Import prelude list functions.
From Verif Require Export ConcProper.

Section concfacts.
Context {P : Params} (LW : Lawful P) (PI : ptr_ids P = true).
Context {budget ghosts cap e : N}.
Notation K := (K P). Notation V := (V P). Notation RS := (RS P).
Notation shard := (shard P). Notation sys := (sys P). Notation pc := (pc P). Notation agent := (agent P).
Notation CInv := (CInv budget ghosts cap e). Notation Reach := (@Reach P (full P) budget ghosts cap e).
Implicit Types (s : shard) (k : K) (v : V) (rs : RS) (p : plh) (a b : nat) (l : loc) (j : nat) (y : sys) (x : pc) (ag : agent).
Implicit Types (c : call P) (h es : list (cevent P)) (g : list (nat * cevent P)).

Local Ltac inl H := repeat match type of H with
  | _ ∈ _ :: _ => apply elem_of_cons in H as [H|H]; [try (discriminate H)|]
  | _ ∈ [] => by apply elem_of_nil in H
  end.

(* ---- one party in charge ---- *)
Lemma charge_one y l a b : Reach y → in_charge (y_log y) l a → in_charge (y_log y) l b → a = b.
Proof.
  intros HR Ha Hb. apply (in_charge_iff _ _ _ HR) in Ha as [Hld Ha]. apply (in_charge_iff _ _ _ HR) in Hb as [_ Hb].
  pose proof (ci_load _ _ _ _ _ (rc_c _ HR) l) as HL.
  assert (∀ d : nat, keeps (lview y l) d → owns (lview y l) d) as Hk by (intros d; unfold keeps, owns; simpl; by destruct (role y l d)).
  assert (∀ (c : nat) w, role y l c = QHand w → owns (lview y l) c) as Hh by (intros c w E; unfold owns; simpl; by rewrite E).
  assert (∀ (c : nat) w, role y l c = QHand w → ¬ keeps (lview y l) c) as Hn by (intros c w E; unfold keeps; simpl; rewrite E; tauto).
  destruct Ha as [Ha|(c & t & Ha)], Hb as [Hb|(d & t' & Hb)].
  - apply (l_one _ HL); auto.
  - destruct (Hn _ _ Hb). assert (d = a) as -> by (apply (l_one _ HL); eauto). done.
  - destruct (Hn _ _ Ha). assert (c = b) as -> by (apply (l_one _ HL); eauto). done.
  - assert (c = d) as <- by (apply (l_one _ HL); eauto). rewrite Ha in Hb. by injection Hb.
Qed.
Lemma in_split (z : nat * cevent P) g : z ∈ g → ∃ g1 g2, g = g1 ++ z :: g2.
Proof. apply elem_of_list_split. Qed.
Lemma trusted_mono g g' l a : trusted g l a → trusted (g ++ g') l a.
Proof. intros [[k H]|[b H]]; [left; exists k|right; exists b]; apply elem_of_app; by left. Qed.
Lemma guard_trusted y l a : GInv y → (a, EvGuard l) ∈ y_log y → trusted (y_log y) l a.
Proof.
  intros HG H. apply in_split in H as (g1 & g2 & E). pose proof (gi_proper _ HG _ _ _ _ E) as [Ht _]. rewrite E. by apply trusted_mono.
Qed.
Lemma settled_trusted y l a : GInv y → settled (y_log y) l a → trusted (y_log y) l a.
Proof.
  intros HG [[v H]|[[b H]|H]]; apply in_split in H as (g1 & g2 & E); pose proof (gi_proper _ HG _ _ _ _ E) as Hp; simpl in Hp;
    rewrite E; apply trusted_mono; apply Hp.
Qed.
Lemma put_load y l a v : Reach y → (a, EvPut l v) ∈ y_log y → at_load y l = Inserted v.
Proof. intros HR H. apply (l_put _ (ci_load _ _ _ _ _ (rc_c _ HR) l)). by exists a. Qed.
Lemma put_not_ended y l a v : Reach y → GInv y → (a, EvPut l v) ∈ y_log y → ¬ ended (y_log y) l.
Proof. intros HR HG H He. apply (gi_end _ HG) in He. rewrite (put_load _ _ _ _ HR H) in He. done. Qed.
(* no other value, and by nobody else *)
Lemma put_one y l a b v v' : GInv y → (a, EvPut l v) ∈ y_log y → (b, EvPut l v') ∈ y_log y → a = b ∧ v = v'.
Proof.
  intros HG. assert (∀ g, proper_log g → (a, EvPut l v) ∈ g → (b, EvPut l v') ∈ g → a = b ∧ v = v') as Hgen; [|apply Hgen, HG].
  intros g. induction g as [|[d ev] g IH] using rev_ind; intros Hp H1 H2; [by apply elem_of_nil in H1|].
  assert (proper_log g) as Hp' by (intros g1 d' ev' g2 ->; eapply Hp; by rewrite <-app_assoc).
  pose proof (Hp g d ev [] eq_refl) as Hl. apply elem_of_app in H1 as [H1|H1]; apply elem_of_app in H2 as [H2|H2]; [by apply IH| | |].
  - apply elem_of_list_singleton in H2. injection H2 as <- <-. destruct Hl as [_ Hl]. by apply Hl in H1.
  - apply elem_of_list_singleton in H1. injection H1 as <- <-. destruct Hl as [_ Hl]. by apply Hl in H2.
  - apply elem_of_list_singleton in H1, H2. rewrite <-H1 in H2. by injection H2.
Qed.
Lemma done_returned y a ag : Reach y → y_agents y !! a = Some ag → returned (y_log y) a → ∃ r, a_pc ag = ADone r.
Proof.
  intros HR Ha [r Hr]. apply hist_in in Hr; [|done]. pose proof (hi_agent _ (rc_h _ HR) _ _ Ha) as Hh.
  destruct (is_done (a_pc ag)) eqn:E; [destruct (a_pc ag); try done; eauto|]. by destruct (undone_hist _ _ _ _ _ r Hh E).
Qed.
Lemma returned_done y a : Reach y → returned (y_log y) a → ∃ ag r, y_agents y !! a = Some ag ∧ a_pc ag = ADone r ∧ (a, EvRet r) ∈ y_log y ∧
  ∃ h, life (sc_mask (y_cache y)) (length (sc_shards (y_cache y))) (a_call ag) h r ∧ hist (y_log y) a = h ++ [EvRet r].
Proof.
  intros HR [r Hr]. pose proof (hi_log _ (rc_h _ HR) _ _ Hr) as Hlt. apply lookup_lt_is_Some in Hlt as [ag Ha].
  destruct (done_returned _ _ _ HR Ha (ex_intro _ r Hr)) as [r' E]. exists ag, r'. split; [done|]. split; [done|].
  pose proof (hi_agent _ (rc_h _ HR) _ _ Ha) as Hh. rewrite E in Hh. destruct Hh as (h & Hh & Eh).
  split; [|by exists h]. apply hist_in; [done|]. rewrite Eh. apply elem_of_app. right. left.
Qed.
Lemma charge_not_returned y l a : Reach y → in_charge (y_log y) l a → ¬ returned (y_log y) a.
Proof.
  intros HR Hc Hr. destruct (returned_done _ _ HR Hr) as (ag & r & Ha & Hpc & _). by destruct (done_quiet y a ag r l HR Ha Hpc) as (_ & _ & []).
Qed.

(* ---- waiters ---- *)
Lemma waiting_someone y l b : Reach y → waiting (y_log y) l b →
  ∃ a, ¬ returned (y_log y) a ∧ (in_charge (y_log y) l a ∨ ∃ v, (a, EvPut l v) ∈ y_log y).
Proof.
  intros HR Hb. apply (waiting_iff _ _ _ HR) in Hb as (t & Hb & Hf). pose proof (ci_load _ _ _ _ _ (rc_c _ HR) l) as HL.
  destruct (at_load y l) as [|v|] eqn:Hld.
  - destruct (loading_charge y l HR Hld) as [a Ha]; [exists b; by rewrite Hb|]. exists a. split; [by eapply charge_not_returned|by left].
  - destruct (l_reg _ HL b t Hb Hf) as [H|[c H]]; [destruct (l_ins _ HL _ Hld) as [Hw _]; rewrite Hw in H; by apply elem_of_nil in H|].
    exists c. unfold pend in H. simpl in H. destruct (role y l c) eqn:Er; try by apply elem_of_nil in H.
    { destruct (l_insg _ HL _ Hld c). unfold guardish. simpl. by rewrite Er. }
    destruct (role_some y l c _ eq_refl) as (ag & j & p & Ha & Hp & ->); [by rewrite Er|]. rewrite Er in Hp. split.
    + intros Hr. destruct (returned_done _ _ HR Hr) as (ag' & r & Ha' & Hpc & _). rewrite Ha in Ha'. injection Ha' as ->. by rewrite Hpc in Hp.
    + right. exists v0. apply hist_in; [done|]. pose proof (hi_agent _ (rc_h _ HR) _ _ Ha) as Hh.
      destruct (a_pc ag) eqn:Hpc; try discriminate Hp; simpl in Hp; try (destruct nm; [|try (by destruct ws0)]); try discriminate Hp; simpl in Hh.
      all: destruct Hh as (k & h0 & _ & _ & _ & ->); injection Hp as -> -> -> _; apply elem_of_app; right; left.
  - destruct (l_term _ HL Hld) as (_ & _ & H). specialize (H b). simpl in H. congruence.
Qed.
(* a queue is empty of everyone whose call is over *)
Lemma done_left y a l t : Reach y → returned (y_log y) a → (a, t) ∉ waiting_on y l.
Proof.
  intros HR Hr Hin. destruct (returned_done _ _ HR Hr) as (ag & r & Ha & Hpc & _).
  pose proof (ci_load _ _ _ _ _ (rc_c _ HR) l) as HL. destruct (l_wait _ HL _ Hin) as [H _]. simpl in H.
  unfold role, role_pc in H. rewrite Ha, Hpc in H. done.
Qed.
(* what a caller that queued up returns *)
Lemma no_wait_in_asked j c k l (ev : cevent P) : EvWait l ∈ asked j c k ++ [ev] → ev = EvWait l.
Proof. unfold asked. intros H. simpl in H. inl H. by rewrite H. Qed.
Lemma life_wait mask n c h r l : life mask n c h r → EvWait l ∈ h →
  (∃ v, r = RetVal v (Some l)) ∨ r = RetTimeout ∨ r = RetCancel ∨
  (∃ ev, ev ∈ h ∧ match ev with EvPut l' _ | EvGive l' _ | EvEnd l' => l' = l | _ => False end).
Proof.
  intros H Hin.
  assert (∀ j c k id, EvWait l ∈ queued j c k id → l = (j, id)) as Hq.
  { intros j c0 k id Hi. unfold queued, asked in Hi. simpl in Hi. inl Hi. by injection Hi. }
  assert (∀ j c k id, EvWait l ∉ began j c k id) as Hbg.
  { intros j c0 k id Hi. unfold began, asked in Hi. simpl in Hi. inl Hi. }
  assert (∀ j c k id h, guarded j c k id h → EvWait l ∈ h → l = (j, id)) as Hg.
  { intros j c0 k id h0 [|] Hi; apply elem_of_app in Hi as [Hi|Hi]; try (by inl Hi); [by destruct (Hbg j c0 k id)|eauto]. }
  assert (∀ j id h, dropped j id h → ∃ ev, ev ∈ h ∧ match ev with EvPut l' _ | EvGive l' _ | EvEnd l' => l' = (j, id) | _ => False end) as Hd.
  { intros j id h0 [|]; eexists; (split; [|reflexivity || idtac]); [left|done|right; left|done]. }
  assert (∀ j id h, dropped j id h → EvWait l ∉ h) as Hdn by (intros j id h0 [|] Hi; inl Hi).
  destruct H as [m k o Hk|m Hk|c k v Hk|c k v Hk|c k id v Hk|c k id v Hk|k to id|k|k id|k id h' Hd'|c k id h0 rs v wl o Hk Hgd|c k id h0 rs v wl Hk Hgd|c k id h0 h' Hk Hgd Hd'].
  - inl Hin.
  - apply elem_of_cons in Hin as [Hin|Hin]; [done|]. apply elem_of_list_fmap in Hin as (? & ? & _). done.
  - inl Hin.
  - by apply no_wait_in_asked in Hin.
  - by apply no_wait_in_asked in Hin.
  - apply Hq in Hin as ->. eauto.
  - eauto.
  - inl Hin.
  - eauto.
  - right; right; right. apply elem_of_app in Hin as [Hin|Hin]; [|by destruct (Hdn _ _ _ Hd')]. apply Hq in Hin as ->.
    destruct (Hd _ _ _ Hd') as (ev & H1 & H2). exists ev. split; [apply elem_of_app; by right|done].
  - right; right; right. apply elem_of_app in Hin as [Hin|Hin]; [|inl Hin]. rewrite (Hg _ _ _ _ _ Hgd Hin).
    exists (EvPut (shard_idx mask k, id) v). split; [apply elem_of_app; right; left|done].
  - right; right; right. apply elem_of_app in Hin as [Hin|Hin]; [|inl Hin]. rewrite (Hg _ _ _ _ _ Hgd Hin).
    exists (EvPut (shard_idx mask k, id) v). split; [apply elem_of_app; right; left|done].
  - right; right; right. apply elem_of_app in Hin as [Hin|Hin]; [|by destruct (Hdn _ _ _ Hd')]. rewrite (Hg _ _ _ _ _ Hgd Hin).
    destruct (Hd _ _ _ Hd') as (ev & H1 & H2). exists ev. split; [apply elem_of_app; by right|done].
Qed.
Lemma life_no_ret mask n c h r r1 : life mask n c h r → EvRet r1 ∉ h.
Proof.
  intros Hl Hr. assert (∀ h0, hushed h0 = true → EvRet r1 ∉ h0) as Hh by (intros h0 H0 H3; apply (hushed_in _ _ H0) in H3; done).
  destruct Hl.
  - inl Hr.
  - apply elem_of_cons in Hr as [Hr|Hr]; [done|]. apply elem_of_list_fmap in Hr as (? & ? & _). done.
  - inl Hr.
  - by apply Hh in Hr.
  - by apply Hh in Hr.
  - by apply Hh in Hr.
  - by apply Hh in Hr.
  - inl Hr.
  - by apply Hh in Hr.
  - apply elem_of_app in Hr as [Hr|Hr]; [by apply Hh in Hr|]. destruct H; inl Hr.
  - apply elem_of_app in Hr as [Hr|Hr]; [apply Hh in Hr; [done|by eapply guarded_hushed]|inl Hr].
  - apply elem_of_app in Hr as [Hr|Hr]; [apply Hh in Hr; [done|by eapply guarded_hushed]|inl Hr].
  - apply elem_of_app in Hr as [Hr|Hr]; [apply Hh in Hr; [done|by eapply guarded_hushed]|]. destruct H1; inl Hr.
Qed.
Lemma returned_unique y a r r' : Reach y → (a, EvRet r) ∈ y_log y → (a, EvRet r') ∈ y_log y → r = r'.
Proof.
  intros HR H1 H2. destruct (returned_done y a HR (ex_intro _ r H1)) as (ag & r0 & Ha & Hpc & _ & h & Hl & Eh).
  assert (∀ r1, (a, EvRet r1) ∈ y_log y → r1 = r0) as H; [|by rewrite (H _ H1), (H _ H2)].
  intros r1 Hr. apply hist_in in Hr; [|done]. rewrite Eh in Hr. apply elem_of_app in Hr as [Hr|Hr]; [|by inl Hr; injection Hr].
  by destruct (life_no_ret _ _ _ _ _ r1 Hl).
Qed.
(* an agent does nothing after it returned *)
Lemma after_return y g1 b r g2 ev : Reach y → y_log y = g1 ++ (b, EvRet r) :: g2 → not_note ev = true → (b, ev) ∉ g2.
Proof.
  intros HR E Hn Hin.
  assert ((b, EvRet r) ∈ y_log y) as Hr by (rewrite E; apply elem_of_app; right; left).
  destruct (returned_done y b HR (ex_intro _ r Hr)) as (ag & r0 & Ha & Hpc & _ & h & Hl & Eh).
  rewrite E, hist_app, (hist_app [_] g2 b : hist ((b, EvRet r) :: g2) b = _) in Eh.
  assert (hist [(b, EvRet r)] b = [EvRet r]) as E1 by (unfold hist; simpl; unfold mine; simpl; by rewrite decide_True).
  rewrite E1 in Eh. apply hist_in in Hin; [|done]. destruct (hist g2 b) as [|z hh _] eqn:E2 using rev_ind; [by apply elem_of_nil in Hin|].
  rewrite !app_assoc in Eh. apply app_inj_tail in Eh as [<- _]. apply (life_no_ret _ _ _ _ _ r Hl).
  apply elem_of_app. left. apply elem_of_app. right. left.
Qed.
Lemma trusted_at_return y g1 b r g2 l : Reach y → GInv y → y_log y = g1 ++ (b, EvRet r) :: g2 → trusted (y_log y) l b → trusted g1 l b.
Proof.
  intros HR HG E Ht.
  assert (∀ (ev : cevent P) d, (d, ev) ∈ y_log y → (d, ev) ≠ (b, EvRet r) → (d, ev) ∈ g1 ∨ (d, ev) ∈ g2) as Hcase.
  { intros ev d Hin Hne. rewrite E in Hin. apply elem_of_app in Hin as [|Hin]; [by left|]. apply elem_of_cons in Hin as [|]; [done|by right]. }
  destruct Ht as [[k H]|[d H]].
  - destruct (Hcase _ _ H) as [H'|H']; [done|left; by exists k|]. by eapply after_return in H'.
  - destruct (Hcase _ _ H) as [H'|H']; [done|right; by exists d|]. exfalso. apply in_split in H' as (g3 & g4 & ->).
    rewrite app_comm_cons, app_assoc in E. pose proof (gi_proper _ HG _ _ _ _ E) as (_ & (_ & _ & Hr) & _). apply Hr. exists r.
    apply elem_of_app. right. left.
Qed.
Lemma waiter_outcome y b l r : Reach y → GInv y → (b, EvWait l) ∈ y_log y → (b, EvRet r) ∈ y_log y →
  (∃ v a, r = RetVal v (Some l) ∧ (a, EvPut l v) ∈ y_log y ∧ noted (y_log y) b) ∨
  ((r = RetTimeout ∨ r = RetCancel) ∧ ∀ l, ¬ trusted (y_log y) l b) ∨ settled (y_log y) l b.
Proof.
  intros HR HG Hw Hr. destruct (returned_done y b HR (ex_intro _ r Hr)) as (ag & r0 & Ha & Hpc & Hr0 & h & Hl & Eh).
  assert (r0 = r) as -> by by eapply returned_unique. pose proof Hw as Hw0. apply hist_in in Hw; [|done]. rewrite Eh in Hw. apply elem_of_app in Hw as [Hw|Hw]; [|inl Hw].
  pose proof Hr as Hp. apply in_split in Hp as (g1 & g2 & E). pose proof (gi_proper _ HG _ _ _ _ E) as Hp.
  destruct (life_wait _ _ _ _ _ _ Hl Hw) as [[v ->]|[->|[->|(ev & Hev & Hm)]]].
  - left. destruct Hp as (_ & _ & _ & [a Hput] & Hn). exists v, a. split; [done|]. split; [rewrite E; apply elem_of_app; by left|].
    assert ((b, EvWait l) ∈ g1 → noted (y_log y) b) as Hn'.
    { intros H. destruct (Hn H) as [d Hd]. exists d. rewrite E. apply elem_of_app; by left. }
    apply Hn'. rewrite E in Hw0. apply elem_of_app in Hw0 as [|Hw0]; [done|]. apply elem_of_cons in Hw0 as [|Hw0]; [done|].
    by eapply after_return in Hw0.
  - right; left. split; [by left|]. intros l' Ht. eapply trusted_at_return in Ht; [|done..]. destruct Hp as (_ & _ & _ & _ & Hp). by apply (Hp l').
  - right; left. split; [by right|]. intros l' Ht. eapply trusted_at_return in Ht; [|done..]. destruct Hp as (_ & _ & _ & Hp). by apply (Hp l').
  - right; right. assert ((b, ev) ∈ y_log y) as Hin by (apply hist_in; [by destruct ev|]; rewrite Eh; apply elem_of_app; by left).
    destruct ev; try done; subst; unfold settled; eauto.
Qed.
End concfacts.
