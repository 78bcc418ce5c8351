(* Consequences of the API specification for the property theorems. *)
From Verif Require Export Reach.

Section seq.
Context {P : Params} (LW : Lawful P).
Notation K := (K P). Notation V := (V P). Notation RS := (RS P).
Notation shard := (shard P). Notation out := (out P). Notation cmd := (cmd P). Notation contents := (contents P).
Implicit Types (s : shard) (k : K) (v : V) (c : contents) (rs : RS) (es : list (event P)).

(* ---- evictions ---- *)
Lemma evicts_origin rs c es rs' c' k' v' : evicts rs c es rs' c' → (k', v') ∈ c' →
  (k', v') ∈ c ∨ ∃ v rs1 rs2, (k', v) ∈ c ∧ weight P k' v ≠ 0%N ∧ before_evict P rs1 k' v = (rs2, v').
Proof.
  induction 1 as [rs c c' H|rs c k v rest rs1 w es rs' c' H Hp Hw Hb Hw' He IH|rs c k v rest rs1 w es rs' c' H Hp Hw Hb Hw' He IH]; intros Hin.
  - left. by rewrite H.
  - destruct (IH Hin) as [[[= -> ->]|Hr]%elem_of_cons|(v0 & r1 & r2 & [[= -> ->]|Hr]%elem_of_cons & ? & ?)].
    + right. exists v, rs, rs1. rewrite H. split_and!; [by left|done|done].
    + left. rewrite H. by right.
    + done.
    + right. exists v0, r1, r2. rewrite H. split_and!; [by right|done|done].
  - destruct (IH Hin) as [Hr|(v0 & r1 & r2 & Hr & ? & ?)].
    + left. rewrite H. by right.
    + right. exists v0, r1, r2. rewrite H. split_and!; [by right|done|done].
Qed.
Lemma evicts_stay rs c es rs' c' k0 v0 : evicts rs c es rs' c' → (k0, v0) ∈ c →
  weight P k0 v0 = 0%N ∨ pinned P k0 v0 = true → (k0, v0) ∈ c'.
Proof.
  induction 1 as [rs c c' H|rs c k v rest rs1 w es rs' c' H Hp Hw Hb Hw' He IH|rs c k v rest rs1 w es rs' c' H Hp Hw Hb Hw' He IH]; intros Hin Hz.
  - by rewrite <-H.
  - apply IH; [|done]. rewrite H in Hin. apply elem_of_cons in Hin as [[= -> ->]|Hin]; [|by right].
    destruct Hz; congruence.
  - apply IH; [|done]. rewrite H in Hin. apply elem_of_cons in Hin as [[= -> ->]|Hin]; [|done].
    destruct Hz; congruence.
Qed.
Lemma evicts_saved rs c es rs' c' k v v' : evicts rs c es rs' c' → EvBefore k v v' ∈ es → weight P k v' = 0%N → (k, v') ∈ c'.
Proof.
  induction 1 as [rs c c' H|rs c k1 v1 rest rs1 w es rs' c' H Hp Hw Hb Hw' He IH|rs c k1 v1 rest rs1 w es rs' c' H Hp Hw Hb Hw' He IH]; intros Hin Hz.
  - by apply elem_of_nil in Hin.
  - apply elem_of_cons in Hin as [[= -> -> ->]|Hin]; [|by apply IH].
    eapply evicts_stay; [done|by left|by left].
  - apply elem_of_cons in Hin as [[= -> -> ->]|Hin]; [done|]. apply elem_of_cons in Hin as [|Hin]; [done|by apply IH].
Qed.
Lemma evicts_explains rs c es rs' c' : evicts rs c es rs' c' → explains c es c'.
Proof.
  induction 1 as [rs c c' H|rs c k v rest rs1 w es rs' c' H Hp Hw Hb Hw' He IH|rs c k v rest rs1 w es rs' c' H Hp Hw Hb Hw' He IH].
  - by apply ex_done.
  - eapply ex_before; done.
  - eapply ex_before; [done|]. eapply ex_evict; [reflexivity|done].
Qed.
Lemma evicts_evictions rs c es rs' c' : evicts rs c es rs' c' → evictions es.
Proof.
  induction 1 as [rs c c' H|rs c k v rest rs1 w es rs' c' H Hp Hw Hb Hw' He IH|rs c k v rest rs1 w es rs' c' H Hp Hw Hb Hw' He IH]; simpl.
  - done.
  - split_and!; [done|done|eauto|]. by destruct (N.eqb_spec (weight P k w) 0).
  - split_and!; [done|done|eauto|]. by destruct (N.eqb_spec (weight P k w) 0).
Qed.
Lemma evicts_nil rs c rs' c' : evicts rs c [] rs' c' → c' ≡ₚ c ∧ rs' = rs.
Proof. inversion 1; subst; by split. Qed.
Lemma evicts_length rs c es rs' c' : evicts rs c es rs' c' → length c' ≤ length c.
Proof.
  induction 1 as [rs c c' H|rs c k v rest rs1 w es rs' c' H Hp Hw Hb Hw' He IH|rs c k v rest rs1 w es rs' c' H Hp Hw Hb Hw' He IH];
    rewrite H in *; simpl in *; lia.
Qed.

(* ---- explains ---- *)
Lemma explains_perm_l c c2 es c' : c ≡ₚ c2 → explains c2 es c' → explains c es c'.
Proof.
  intros Hp H. inversion H; subst; [apply ex_done|eapply ex_before|eapply ex_evict]; try done; by etrans.
Qed.
Lemma explains_perm_r c es c' c2 : explains c es c' → c' ≡ₚ c2 → explains c es c2.
Proof.
  intros H. revert c2. induction H; intros c2 Hp; [apply ex_done|eapply ex_before|eapply ex_evict]; eauto. by etrans.
Qed.
Lemma explains_trans c es c' es2 c2 : explains c es c' → explains c' es2 c2 → explains c (es ++ es2) c2.
Proof.
  intros H. revert es2 c2. induction H; intros es2 c2 Hn; simpl.
  - by eapply explains_perm_l.
  - eapply ex_before; eauto.
  - eapply ex_evict; eauto.
Qed.
Lemma explains_frame c es c' d : explains c es c' → explains (c ++ d) es (c' ++ d).
Proof.
  induction 1 as [c c' H|c k v v' rest es c' H He IH|c k v rest es c' H He IH].
  - apply ex_done. by rewrite H.
  - apply (ex_before _ k v v' (rest ++ d)); [by rewrite H|exact IH].
  - apply (ex_evict _ k v (rest ++ d)); [by rewrite H|exact IH].
Qed.

(* ---- sums ---- *)
Lemma wsum_filter (f : K * V → bool) c : (wsum (List.filter f c) ≤ wsum c)%N.
Proof.
  induction c as [|[k v] c IH]; [done|]. cbn [List.filter]. destruct (f _); rewrite ?wsum_cons; lia.
Qed.
Lemma wsum_upd k f c : (∀ k' v, keqb P k k' = true → (weight P k' (f v) ≤ weight P k' v)%N) → (wsum (Spec.upd k f c) ≤ wsum c)%N.
Proof.
  intros Hf. unfold Spec.upd. induction c as [|[k' v] c IH]; [done|]. cbn [List.map fst snd].
  destruct (keqb P k k') eqn:Hk; rewrite !wsum_cons; [pose proof (Hf _ v Hk)|]; lia.
Qed.
Lemma uwsum_cons k v c : uwsum ((k, v) :: c) = ((if pinned P k v then 0 else weight P k v) + uwsum c)%N.
Proof.
  unfold uwsum, filter. cbn [list_filter fst snd]. case_decide as Hp.
  - rewrite Hp. by rewrite wsum_cons.
  - by destruct (pinned P k v).
Qed.
Lemma uwsum_le c : (uwsum c ≤ wsum c)%N.
Proof. induction c as [|[k v] c IH]; [done|]. rewrite uwsum_cons, wsum_cons. destruct (pinned P k v); lia. Qed.
Lemma uwsum_none c : (∀ k v, pinned P k v = false) → uwsum c = wsum c.
Proof. intros H. induction c as [|[k v] c IH]; [done|]. rewrite uwsum_cons, wsum_cons, H. lia. Qed.
Lemma uwsum_pinned c : all_pinned c → uwsum c = 0%N.
Proof.
  induction c as [|[k v] c IH]; intros H; [done|]. rewrite uwsum_cons, IH.
  - destruct (pinned P k v) eqn:Hp; [done|]. destruct (N.eq_dec (weight P k v) 0) as [->|Hw]; [done|].
    rewrite (H k v) in Hp; [done|by left|done].
  - intros k' v' Hin. apply H. by right.
Qed.
Lemma uwsum_filter (f : K * V → bool) c : (uwsum (List.filter f c) ≤ uwsum c)%N.
Proof.
  induction c as [|[k v] c IH]; [done|]. cbn [List.filter]. destruct (f _); rewrite ?uwsum_cons; lia.
Qed.
Lemma uwsum_upd k f c : (∀ k' v, keqb P k k' = true →
   (weight P k' (f v) ≤ weight P k' v)%N ∧ (pinned P k' v = true → pinned P k' (f v) = true)) →
  (uwsum (Spec.upd k f c) ≤ uwsum c)%N.
Proof.
  intros Hf. unfold Spec.upd. induction c as [|[k' v] c IH]; [done|]. cbn [List.map fst snd].
  destruct (keqb P k k') eqn:Hk; rewrite !uwsum_cons; [|lia]. destruct (Hf _ v Hk) as [H1 H2].
  destruct (pinned P k' v); [rewrite H2 by done; lia|]. destruct (pinned P k' (f v)); lia.
Qed.
Lemma evicts_uwsum rs c es rs' c' : evicts rs c es rs' c' → (uwsum c' ≤ uwsum c)%N.
Proof.
  induction 1 as [rs c c' H|rs c k v rest rs1 v' es rs' c' H Hp Hw Hb Hw' He IH|rs c k v rest rs1 v' es rs' c' H Hp Hw Hb Hw' He IH].
  - by rewrite H.
  - rewrite H. rewrite !uwsum_cons, Hw' in *. destruct (pinned P k v'); lia.
  - rewrite H. rewrite uwsum_cons in *. lia.
Qed.

(* ---- admission ---- *)
Lemma admission_stored budget rs k v rs1 es v1 b : admission budget rs k v = (rs1, es, v1, b) → v1 = stored budget rs k v.
Proof.
  unfold admission, stored. destruct (_ && _); [|by intros [= <- <- <- <-]].
  destruct (before_evict P rs k v) as [r w]. by intros [= <- <- <- <-].
Qed.
Lemma admission_refused budget rs k v rs1 es v1 b : admission budget rs k v = (rs1, es, v1, b) → b = true ↔ refused budget rs k v.
Proof.
  unfold admission, refused. destruct (N.ltb_spec budget (weight P k v)) as [H1|H1]; destruct (pinned P k v); simpl.
  - intros [= <- <- <- <-]. naive_solver.
  - destruct (before_evict P rs k v) as [r w]. simpl. intros [= <- <- <- <-]. rewrite N.ltb_lt. naive_solver.
  - intros [= <- <- <- <-]. naive_solver lia.
  - intros [= <- <- <- <-]. naive_solver lia.
Qed.
Lemma admission_light budget rs k v rs1 es v1 : admission budget rs k v = (rs1, es, v1, false) →
  (weight P k v1 ≤ budget)%N ∨ pinned P k v1 = true.
Proof.
  unfold admission. destruct (N.ltb_spec budget (weight P k v)) as [H1|H1]; destruct (pinned P k v) eqn:Hp; simpl.
  - intros [= <- <- <-]. by right.
  - destruct (before_evict P rs k v) as [r w]. simpl. intros [= <- <- <- H]. left. by apply N.ltb_ge in H.
  - intros [= <- <- <-]. by left.
  - intros [= <- <- <-]. by left.
Qed.
(* the hook calls of the admission *)
Lemma admission_hooks budget rs k v rs1 es v1 b : admission budget rs k v = (rs1, es, v1, b) →
  (es = [] ∧ v1 = v ∧ rs1 = rs) ∨
  (es = [EvBefore k v v1] ∧ before_evict P rs k v = (rs1, v1) ∧ pinned P k v = false ∧ (budget < weight P k v)%N).
Proof.
  unfold admission. destruct (N.ltb_spec budget (weight P k v)) as [H1|H1]; destruct (pinned P k v) eqn:Hp; simpl.
  - intros [= <- <- <- <-]. by left.
  - destruct (before_evict P rs k v) as [r w]. simpl. intros [= <- <- <- <-]. by right.
  - intros [= <- <- <- <-]. by left.
  - intros [= <- <- <- <-]. by left.
Qed.
Lemma admission_explains budget rs k v rs1 es v1 b c : admission budget rs k v = (rs1, es, v1, b) →
  explains ((k, v) :: c) es ((k, v1) :: c).
Proof.
  intros H. destruct (admission_hooks _ _ _ _ _ _ _ _ H) as [(-> & -> & _)|(-> & _)].
  - by apply ex_done.
  - eapply ex_before; [reflexivity|]. by apply ex_done.
Qed.

(* ---- capacity ---- *)
Lemma inserts_uwsum cap budget b rs c k v es rs' c' o :
  (budget ≤ cap)%N → inserts cap budget b rs c k v es rs' c' o → (uwsum c ≤ cap)%N → (uwsum c' ≤ cap)%N.
Proof.
  intros Hb H Hc.
  inversion H as [rs1 es1 v1 c1 Ha Hf Hp|rs1 es1 v1 ko vo c1 Ha Hf Hp|rs1 es1 v1 c1 Ha Hf Hcr Hp
    |rs1 es1 v1 ko vo es2 rs2 c1 Ha Hf He Hw Hn|rs1 es1 v1 es2 rs2 c1 c2 Ha Hf Hcr He Hw Hn Hp|rs1 es1 v1 es2 rs2 c1 Ha Hf Hcr He Hw Hn]; subst.
  - by rewrite Hp.
  - rewrite Hp. unfold del. etrans; [apply uwsum_filter|done].
  - by rewrite Hp.
  - destruct Hw as [Hw|Hw]; [pose proof (uwsum_le c'); lia|by rewrite uwsum_pinned; [lia|]].
  - rewrite Hp. destruct Hw as [Hw|Hw].
    + pose proof (uwsum_le ((k, v1) :: c1)). rewrite wsum_cons in *. lia.
    + rewrite uwsum_cons, (uwsum_pinned c1) by done.
      destruct (admission_light _ _ _ _ _ _ _ Ha) as [Hl|Hl]; [destruct (pinned P k v1); lia|rewrite Hl; lia].
  - destruct Hw as [Hw|Hw]; [pose proof (uwsum_le c'); lia|by rewrite uwsum_pinned; [lia|]].
Qed.
Lemma loads_uwsum cap budget rs c k v es rs' c' :
  loads cap budget rs c k v es rs' c' → (uwsum c ≤ cap)%N → (uwsum c' ≤ cap)%N.
Proof.
  intros H Hc. inversion H as [? ? ? ? ? Hp|? ? ? ? ? Hz Hp|? ? ? ? ? ? ? ? He Hw]; subst.
  - by rewrite Hp.
  - rewrite Hp, uwsum_cons, Hz. destruct (pinned P k v1); lia.
  - destruct Hw as [Hw|Hw]; [pose proof (uwsum_le c'); lia|by rewrite uwsum_pinned; [lia|]].
Qed.
Lemma guards_uwsum cap budget c rs k g o c' :
  guards cap budget c rs k g o c' → (uwsum c ≤ cap)%N → (uwsum c' ≤ cap)%N.
Proof.
  destruct g as [v wl| |]; simpl.
  - intros (kp & es & rs' & _ & H & _). by eapply loads_uwsum.
  - by intros [-> _].
  - by intros [-> _].
Qed.
Lemma does_uwsum cap budget c m o c' :
  (budget ≤ cap)%N → no_growth_unpin m → does cap budget c m o c' → (uwsum c ≤ cap)%N → (uwsum c' ≤ cap)%N.
Proof.
  intros Hb Hg Hd Hc.
  destruct m as [k|k|k|k f|k f|k|rs k v soft wl|rs k v wl|f| | | |rs k w|rs k w f|rs k g|rs k f g]; simpl in *.
  - by destruct Hd as [-> _].
  - by destruct Hd as [-> _].
  - by destruct Hd as [-> _].
  - destruct Hd as [-> _]. etrans; [by apply uwsum_upd|done].
  - destruct Hd as [-> _]. etrans; [by apply uwsum_upd|done].
  - destruct Hd as [-> _]. etrans; [by apply uwsum_filter|done].
  - destruct Hd as (es & rs' & b & Hi & _). eapply inserts_uwsum; [exact Hb|exact Hi|exact Hc].
  - destruct Hd as (es & rs' & Hi & _). eapply inserts_uwsum; [exact Hb|exact Hi|exact Hc].
  - destruct Hd as [-> _]. etrans; [by apply uwsum_filter|done].
  - destruct Hd as [-> _]. unfold uwsum; simpl; lia.
  - destruct Hd as [-> _]. unfold uwsum; simpl; lia.
  - by destruct Hd as [-> _].
  - destruct (value_of k c) as [v0|], w as [v|].
    + by destruct Hd as [-> _].
    + by destruct Hd as [-> _].
    + destruct Hd as (kp & es & rs' & _ & Hl & _). by eapply loads_uwsum.
    + by destruct Hd as [-> _].
  - destruct (value_of k c) as [v0|], w as [v|].
    + destruct Hd as [-> _]. etrans; [by apply uwsum_upd|done].
    + destruct Hd as [-> _]. etrans; [by apply uwsum_upd|done].
    + destruct Hd as (kp & es & rs' & c1 & _ & Hl & -> & _). etrans; [by apply uwsum_upd|]. by eapply loads_uwsum.
    + by destruct Hd as [-> _].
  - destruct (value_of k c) as [v0|].
    + by destruct Hd as [-> _].
    + by eapply guards_uwsum.
  - destruct (value_of k c) as [v0|].
    + destruct Hd as [-> _]. etrans; [by apply uwsum_upd|done].
    + by eapply guards_uwsum.
Qed.
Lemma history_uwsum budget ghosts cap h os s : (budget ≤ cap)%N → Forall no_growth_unpin h →
  history budget ghosts cap h os s → (uwsum (sh_iter s) ≤ cap)%N.
Proof.
  intros Hb Hg H. revert Hg. eapply (history_ind LW budget ghosts cap
    (λ h os s, Forall no_growth_unpin h → (uwsum (sh_iter s) ≤ cap)%N)); [..|exact H].
  - intros _. unfold uwsum, sh_iter; simpl. lia.
  - intros h0 os0 s0 m o s' H0 HI Hc IH He Hs Hd Hg. apply Forall_app in Hg as [Hg1 Hg2]. apply Forall_cons in Hg2 as [Hg2 _].
    eapply does_uwsum; [exact Hb|exact Hg2|exact Hd|by apply IH].
Qed.
End seq.
