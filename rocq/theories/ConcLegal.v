(* What the order of the critical sections of a shard says about its pending loads. *)
From stdpp Require Import prelude list.
From Verif Require Export ConcSpec.

Section conclegal.
Context {P : Params} (LW : Lawful P).
Context {cap budget : N}.
Notation K := (K P). Notation V := (V P). Notation RS := (RS P).
Notation legal := (legal cap budget). Notation sdoes := (sdoes cap budget).
Implicit Types (k : K) (v : V) (rs : RS) (id : N) (h : list (sop P * sres P)) (d : sst P) (o : sop P) (r : sres P).

(* the section ends the load id of key k, without its guard, or by its guard *)
Definition ends k id (z : sop P * sres P) : Prop :=
  match z with
  | (OCmd m, SO _) => cancels budget m k
  | (OFill _ id' _ _, SO _) => id' = id
  | (ODrop id', SGone) => id' = id
  | _ => False
  end.
Lemma cancels_pend m k (pd : N → option K) id : pd id = Some k → 
  (cancels budget m k ∧ pend_after budget m pd id = None) ∨ (¬ cancels budget m k ∧ pend_after budget m pd id = Some k).
Proof.
  intros H. destruct m; simpl; try (right; split; [tauto|done]); try (left; done).
  - unfold pdel. rewrite H. destruct (keqb P k0 k) eqn:E; [left|right]; done.
  - destruct (admission budget rs k0 v).2 eqn:Ea; [right; split; [naive_solver|done]|]. unfold pdel. rewrite H.
    destruct (keqb P k0 k) eqn:E; [left|right; split; [naive_solver|]]; done.
Qed.
Lemma pend_after_none m (pd : N → option K) id : pd id = None → pend_after budget m pd id = None.
Proof. intros H. destruct m; simpl; unfold pdel; rewrite ?H; try done. destruct (admission _ _ _ _).2; [done|]. by rewrite H. Qed.

(* one step, for a load that is pending *)
Lemma sdoes_pend d o r d' id k : sdoes d o r d' → ss_pend d id = Some k → (id < ss_next d)%N →
  (ends k id (o, r) ∧ ss_pend d' id = None) ∨ (¬ ends k id (o, r) ∧ ss_pend d' id = Some k).
Proof.
  destruct d as [c pd n], d' as [c' pd' n']. simpl. intros H Hp Hlt.
  destruct o as [m|k'|rs id' v wl|id'], r as [q|v0|id0|id0|v0|]; try done; simpl.
  - destruct H as (_ & _ & H & _). rewrite H. by apply cancels_pend.
  - destruct H as (_ & _ & H & _). rewrite H. right. by split; [tauto|].
  - destruct H as (_ & _ & _ & H & _). rewrite H. right. by split; [tauto|].
  - destruct H as (_ & _ & -> & _ & H & _). rewrite H. right. split; [tauto|]. unfold pset. rewrite decide_False; [done|]. lia.
  - destruct H as (? & ? & ? & _ & _ & _ & H & _). rewrite H. unfold pset. case_decide; subst; [left|right; split; [congruence|]]; done.
  - destruct H as (_ & _ & _ & H & _). rewrite H. right. by split; [tauto|].
  - destruct H as (_ & H & _). rewrite H. unfold pset. case_decide; subst; [left|right; split; [congruence|]]; done.
Qed.
Lemma sdoes_none d o r d' id : sdoes d o r d' → ss_pend d id = None → (∀ k, (o, r) ≠ (OJoin k, SNew id)) → ss_pend d' id = None.
Proof.
  destruct d as [c pd n], d' as [c' pd' n']. simpl. intros H Hp Hn.
  destruct o as [m|k'|rs id' v wl|id'], r as [q|v0|id0|id0|v0|]; try done; simpl in *.
  - destruct H as (_ & _ & H & _). rewrite H. by apply pend_after_none.
  - destruct H as (_ & _ & H & _). by rewrite H.
  - destruct H as (_ & _ & _ & H & _). by rewrite H.
  - destruct H as (_ & _ & _ & _ & H & _). rewrite H. unfold pset. rewrite decide_False; [done|]. intros ->. by eapply Hn.
  - destruct H as (? & ? & ? & _ & _ & _ & H & _). rewrite H. unfold pset. by case_decide.
  - destruct H as (_ & _ & _ & H & _). by rewrite H.
  - destruct H as (_ & H & _). rewrite H. unfold pset. by case_decide.
Qed.
(* the identities grow *)
Lemma sdoes_next_id d o r d' : sdoes d o r d' →
  (∀ k id, (o, r) = (OJoin k, SNew id) → id = ss_next d ∧ ss_next d' = (ss_next d + 1)%N ∧ ss_pend d' id = Some k ∧
     ∀ i k', ss_pend d i = Some k' → keqb P k k' = false) ∧
  ((∀ k id, (o, r) ≠ (OJoin k, SNew id)) → ss_next d' = ss_next d).
Proof.
  destruct d as [c pd n], d' as [c' pd' n']. simpl. intros H. split.
  - intros k id [= -> ->]. simpl in H. destruct H as (_ & H2 & -> & _ & H & ->). split_and!; try done. rewrite H. unfold pset. by rewrite decide_True.
  - intros Hn. destruct o as [m|k'|rs id' v wl|id'], r as [q|v0|id0|id0|v0|]; try done; try by destruct_and?.
    + destruct (Hn k' id0). done.
    + destruct H as (? & ? & ? & _ & _ & _ & _ & ->). done.
Qed.
Lemma next_le d o r d' : sdoes d o r d' → (ss_next d ≤ ss_next d')%N.
Proof.
  intros H. destruct (sdoes_next_id _ _ _ _ H) as [H1 H2]. destruct o as [m|k|rs id v wl|id]; try (rewrite H2 by done; lia).
  destruct r as [q|v0|id0|id0|v0|]; try (rewrite H2 by done; lia). destruct (H1 k id0) as (_ & -> & _); [done|lia].
Qed.
Lemma legal_known h d : legal h d → ∀ id k,
  ss_pend d id = Some k ∨ (OJoin k, SNew id) ∈ h ∨ (OJoin k, SWait id) ∈ h → (id < ss_next d)%N.
Proof.
  induction 1 as [|h d o r d' H IH Hs]; intros id k.
  - intros [?|[?%elem_of_nil|?%elem_of_nil]]; done.
  - pose proof (next_le _ _ _ _ Hs) as Hle. destruct (sdoes_next_id _ _ _ _ Hs) as [H1 _].
    assert (∀ k', (o, r) = (OJoin k', SNew id) → (id < ss_next d')%N) as Hnew.
    { intros k' E. destruct (H1 _ _ E) as (-> & -> & _). lia. }
    assert (∀ k', (o, r) = (OJoin k', SWait id) → (id < ss_next d')%N) as Hwt.
    { intros k' [= -> ->]. destruct d, d'. simpl in *. destruct Hs as (_ & (k1 & Hk1 & _) & _). specialize (IH id k1 (or_introl Hk1)). lia. }
    intros [Hp|[Hp|Hp]].
    + destruct (ss_pend d id) as [k0|] eqn:E; [specialize (IH id k0 (or_introl E)); lia|].
      destruct o as [m|k'|rs id' v wl|id'], r as [q|v0|id0|id0|v0|]; try (by rewrite (sdoes_none _ _ _ _ id Hs E) in Hp).
      destruct (decide (id0 = id)) as [->|Hne]; [by eapply Hnew|]. rewrite (sdoes_none _ _ _ _ id Hs E) in Hp; [done|congruence].
    + apply elem_of_app in Hp as [Hp|Hp%elem_of_list_singleton]; [specialize (IH id k (or_intror (or_introl Hp))); lia|by eapply Hnew].
    + apply elem_of_app in Hp as [Hp|Hp%elem_of_list_singleton]; [specialize (IH id k (or_intror (or_intror Hp))); lia|by eapply Hwt].
Qed.

(* a load is pending from its start to the first section that ends it *)
Lemma legal_pending h d : legal h d → ∀ id k, ss_pend d id = Some k ↔
  ∃ h1 h2, h = h1 ++ (OJoin k, SNew id) :: h2 ∧ Forall (λ z, ¬ ends k id z) h2.
Proof.
  intros HL. pose proof HL as HL0. induction HL as [|h d o r d' H IH Hs]; intros id k.
  - split; [done|]. intros (h1 & h2 & E & _). by destruct h1.
  - specialize (IH H). destruct (ss_pend d id) as [k0|] eqn:E.
    + pose proof (legal_known _ _ H id k0 (or_introl E)) as Hlt.
      assert (∀ h1 h2 k1, h ++ [(o, r)] = h1 ++ (OJoin k1, SNew id) :: h2 → ∃ h3, h2 = h3 ++ [(o, r)] ∧ h = h1 ++ (OJoin k1, SNew id) :: h3) as Hin.
      { intros h1 h2 k1 Eh. destruct h2 as [|z h2 _] using rev_ind.
        - apply app_inj_tail in Eh as [-> [= -> ->]]. destruct (sdoes_next_id _ _ _ _ Hs) as [H1 _]. destruct (H1 k1 id); [done|]. lia.
        - rewrite app_comm_cons, app_assoc in Eh. apply app_inj_tail in Eh as [-> ->]. eauto. }
      destruct (sdoes_pend _ _ _ _ _ _ Hs E Hlt) as [[He Hn]|[He Hn]]; rewrite Hn.
      * split; [done|]. intros (h1 & h2 & Eh & HF). destruct (Hin _ _ _ Eh) as (h3 & -> & ->).
        apply Forall_app in HF as [HF HF']. rewrite Forall_singleton in HF'.
        assert (Some k0 = Some k) as [= ->] by (rewrite <- E; apply IH; eauto). done.
      * split.
        -- intros [= ->]. apply IH in E as (h1 & h2 & -> & HF). exists h1, (h2 ++ [(o, r)]). rewrite app_comm_cons, app_assoc. split; [done|].
           apply Forall_app. by rewrite Forall_singleton.
        -- intros (h1 & h2 & Eh & HF). destruct (Hin _ _ _ Eh) as (h3 & -> & ->). apply Forall_app in HF as [HF _]. rewrite <- E. apply IH. eauto.
    + assert ((∃ k', (o, r) = (OJoin k', SNew id)) ∨ (∀ k', (o, r) ≠ (OJoin k', SNew id))) as [(k' & Eo)|Hn].
      { destruct o as [m|k'|rs id' v wl|id'], r as [q|v0|id0|id0|v0|]; try (right; congruence).
        destruct (decide (id0 = id)) as [->|]; [left; eauto|right; congruence]. }
      * destruct (sdoes_next_id _ _ _ _ Hs) as [H1 _]. destruct (H1 _ _ Eo) as (Eid & _ & Hp & _). rewrite Hp, Eo. split.
        -- intros [= ->]. by exists h, [].
        -- intros (h1 & h2 & Eh & HF). destruct h2 as [|z h2 _] using rev_ind; [by apply app_inj_tail in Eh as [_ [= ->]]|].
           rewrite app_comm_cons, app_assoc in Eh. apply app_inj_tail in Eh as [-> _].
           assert (id < ss_next d)%N; [|lia]. eapply (legal_known _ _ H id k). right. left. apply elem_of_app. right. left.
      * rewrite (sdoes_none _ _ _ _ id Hs E Hn). split; [done|]. intros (h1 & h2 & Eh & HF).
        destruct h2 as [|z h2 _] using rev_ind; [apply app_inj_tail in Eh as [_ Eh]; by destruct (Hn k)|].
        rewrite app_comm_cons, app_assoc in Eh. apply app_inj_tail in Eh as [-> _]. apply Forall_app in HF as [HF _].
        assert (None = Some k); [|done]. rewrite <- E. apply IH. eauto.
Qed.
(* each load has its own identity *)
Lemma legal_once h d : legal h d → ∀ id k1 k2 h1 h2, h = h1 ++ (OJoin k1, SNew id) :: h2 → (OJoin k2, SNew id) ∉ h1 ∧ (OJoin k2, SWait id) ∉ h1 ∧ (OJoin k2, SNew id) ∉ h2.
Proof.
  induction 1 as [|h d o r d' H IH Hs]; intros id k1 k2 h1 h2 E; [by destruct h1|].
  destruct (sdoes_next_id _ _ _ _ Hs) as [H1 _]. destruct h2 as [|z h2 _] using rev_ind.
  - apply app_inj_tail in E as [-> E]. destruct (H1 _ _ E) as (Eid & _). split_and!.
    + intros Hin. pose proof (legal_known _ _ H id k2 (or_intror (or_introl Hin))). lia.
    + intros Hin. pose proof (legal_known _ _ H id k2 (or_intror (or_intror Hin))). lia.
    + by intros ?%elem_of_nil.
  - rewrite app_comm_cons, app_assoc in E. apply app_inj_tail in E as [-> <-]. destruct (IH id k1 k2 h1 h2 eq_refl) as (? & ? & ?). split_and!; try done.
    rewrite elem_of_app, elem_of_list_singleton. intros [?|Ez]; [done|]. destruct (H1 k2 id) as (Eid & _); [done|].
    assert (id < ss_next d)%N; [|lia]. eapply (legal_known _ _ H id k1). right. left. apply elem_of_app. right. left.
Qed.
Lemma legal_inv h z d : legal (h ++ [z]) d → ∃ d0, legal h d0 ∧ sdoes d0 z.1 z.2 d.
Proof.
  intros H. remember (h ++ [z]) as h' eqn:E. destruct H as [|h0 d0 o r d' H Hs]; [by destruct h|].
  apply app_inj_tail in E as [-> <-]. eauto.
Qed.
Lemma legal_prefix h1 h2 d : legal (h1 ++ h2) d → ∃ d0, legal h1 d0.
Proof.
  revert d. induction h2 as [|z h2 IH] using rev_ind; intros d H; [rewrite app_nil_r in H; eauto|].
  rewrite app_assoc in H. apply legal_inv in H as (d0 & H & _). eauto.
Qed.
Lemma legal_mid h1 z h2 d : legal (h1 ++ z :: h2) d → ∃ d0 d1, legal h1 d0 ∧ sdoes d0 z.1 z.2 d1 ∧ legal (h1 ++ [z]) d1.
Proof.
  rewrite cons_middle, app_assoc. intros H. apply legal_prefix in H as (d1 & H). pose proof H as H0. apply legal_inv in H as (d0 & ? & ?). eauto.
Qed.
End conclegal.
