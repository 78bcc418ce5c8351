(* The machine of Policy.v moves in one way only, when different keys have different hashes. *)
From Verif Require Export PolicyKeys ShardLookup.

Section det.
Context {P : Params}.
Notation item := (resident P).
Implicit Types (x y : item) (A B L : list item) (l : lcs P) (p q : policy P) (lim : limits).

Lemma clock_det seen A B L o : clock seen A B L o → ∀ L' o', clock seen A B L' o' → L' = L ∧ o' = o.
Proof.
  induction 1 as [seen A L o HA H IH|A x Hp|seen A x B L o Hp Hs H IH|seen A x B L o Hp Hr H IH|seen A x B Hp Hr]; intros L' o' H'; inversion H'; subst; try congruence; try (by apply IH).
  all: repeat match goal with H : _ ∨ _ |- _ => destruct H end; try done; try congruence.
Qed.
Lemma hot_hand_det p l q l' b : hot_hand p l q l' b → ∀ q2 l2 b2, hot_hand p l q2 l2 b2 → q2 = q ∧ l2 = l' ∧ b2 = b.
Proof.
  assert (∀ L o, ¬ clock (P:=P) false [] [] L o) as Hnil by (intros L o H; inversion H; congruence).
  intros H q2 l2 b2 H2. destruct H as [H|L Hn H|L x q l' H Hd]; inversion H2 as [H'|L' Hn' H'|L' x' q' l2' H' Hd']; subst.
  - done.
  - congruence.
  - rewrite H in H'. by apply Hnil in H'.
  - congruence.
  - by destruct (clock_det _ _ _ _ _ H _ _ H') as [-> _].
  - by destruct (clock_det _ _ _ _ _ H _ _ H') as [_ ?].
  - rewrite H' in H. by apply Hnil in H.
  - by destruct (clock_det _ _ _ _ _ H _ _ H') as [_ ?].
  - destruct (clock_det _ _ _ _ _ H _ _ H') as [-> [= ->]]. rewrite Hd in Hd'. by injection Hd' as -> ->.
Qed.
Lemma trim_det lim p l q l' : trim lim p l q l' → ∀ q2 l2, trim lim p l q2 l2 → q2 = q ∧ l2 = l'.
Proof.
  induction 1 as [p l Hle|p l q l' Hlt H|p l q1 l1 q l' Hlt H Ht IH]; intros q2 l2 H2; inversion H2 as [|? ? ? H'|? ? ? ? ? H']; subst; try done; try lia.
  - by destruct (hot_hand_det _ _ _ _ _ H _ _ _ H') as (-> & -> & _).
  - by destruct (hot_hand_det _ _ _ _ _ H _ _ _ H') as (_ & _ & ?).
  - by destruct (hot_hand_det _ _ _ _ _ H _ _ _ H') as (_ & _ & ?).
  - destruct (hot_hand_det _ _ _ _ _ H _ _ _ H') as (-> & -> & _). by apply IH.
Qed.
Lemma first_det A x B A' x' B' : A ++ x :: B = A' ++ x' :: B' → Forall skipped A → Forall skipped A' → ¬ skipped x → ¬ skipped x' →
  A' = A ∧ x' = x ∧ B' = B.
Proof.
  revert A'. induction A as [|a A IH]; intros [|a' A'] He HA HA' Hx Hx'; simpl in *; injection He as <- He; try (rewrite <-He in *).
  - done.
  - apply Forall_cons in HA' as [Hs _]. by destruct (Hx Hs).
  - apply Forall_cons in HA as [Hs _]. by destruct (Hx' Hs).
  - apply Forall_cons in HA as [_ HA]. apply Forall_cons in HA' as [_ HA']. by destruct (IH A' He HA HA' Hx Hx') as (-> & -> & ->).
Qed.
Lemma cold_hand_det lim p l q l' b : cold_hand lim p l q l' b → ∀ q2 l2 b2, cold_hand lim p l q2 l2 b2 → q2 = q ∧ l2 = l' ∧ b2 = b.
Proof.
  assert (∀ x, r_ref x ≠ 0%N → ¬ skipped x) as Hu by (intros x Hx [_ ?]; done).
  assert (∀ x, is_pinned x = false → ¬ skipped x) as Hv by (intros x Hx [? _]; congruence).
  assert (∀ A x B, Forall skipped (A ++ x :: B) → skipped x) as Hin by (intros A x B [_ [? _]%Forall_cons]%Forall_app; done).
  intros H q2 l2 b2 H2. destruct H as [q l' b Hs H|A x B q l' HL HA Hr H|A x B q l' HL HA Hr Hp H];
    inversion H2 as [q2' l2' b2' Hs' H'|A' x' B' q2' l2' HL' HA' Hr' H'|A' x' B' q2' l2' HL' HA' Hr' Hp' H']; subst.
  - by eapply hot_hand_det.
  - rewrite HL' in Hs. apply Hin in Hs. by apply Hu in Hs.
  - rewrite HL' in Hs. apply Hin in Hs. by apply Hv in Hs.
  - rewrite HL in Hs'. apply Hin in Hs'. by apply Hu in Hs'.
  - rewrite HL in HL'. destruct (first_det _ _ _ _ _ _ HL' HA HA' (Hu _ Hr) (Hu _ Hr')) as (-> & -> & ->).
    by destruct (trim_det _ _ _ _ _ H _ _ H') as [-> ->].
  - rewrite HL in HL'. destruct (first_det _ _ _ _ _ _ HL' HA HA' (Hu _ Hr) (Hv _ Hp')) as (-> & -> & ->). done.
  - rewrite HL in Hs'. apply Hin in Hs'. by apply Hv in Hs'.
  - rewrite HL in HL'. destruct (first_det _ _ _ _ _ _ HL' HA HA' (Hv _ Hp) (Hu _ Hr')) as (-> & -> & ->). done.
  - rewrite HL in HL'. destruct (first_det _ _ _ _ _ _ HL' HA HA' (Hv _ Hp) (Hv _ Hp')) as (-> & -> & ->). rewrite H in H'. by injection H' as -> ->.
Qed.
Lemma make_room_det lim extra p l q l' : make_room lim extra p l q l' → ∀ q2 l2, make_room lim extra p l q2 l2 → q2 = q ∧ l2 = l'.
Proof.
  induction 1 as [p l Hle|p l q l' Hlt H|p l q1 l1 q l' Hlt H Ht IH]; intros q2 l2 H2; inversion H2 as [|? ? ? H'|? ? ? ? ? H']; subst; try done; try lia.
  - by destruct (cold_hand_det _ _ _ _ _ _ H _ _ _ H') as (-> & -> & _).
  - by destruct (cold_hand_det _ _ _ _ _ _ H _ _ _ H') as (_ & _ & ?).
  - by destruct (cold_hand_det _ _ _ _ _ _ H _ _ _ H') as (_ & _ & ?).
  - destruct (cold_hand_det _ _ _ _ _ _ H _ _ _ H') as (-> & -> & _). by apply IH.
Qed.
End det.

(* ---- keys, ghosts and loads are distinct ---- *)
Section wf.
Context {P : Params} (LW : Lawful P) (S : K P → Prop) (Hinj : ∀ k k', S k → S k' → hash P k = hash P k' → keqb P k k' = true).
Notation K := (K P). Notation V := (V P). Notation item := (resident P).
Implicit Types (k : K) (v : V) (x y : item) (A B L : list item) (l : lcs P) (p q : policy P) (lim : limits).

(* all keys are in S *)
Definition KL L : Prop := Forall (λ x, S (r_key x)) L.
Definition KS p : Prop := KL (q_hot p) ∧ KL (q_cold p) ∧ KL (q_idle p).
Lemma KL_app A B : KL (A ++ B) ↔ KL A ∧ KL B. Proof. apply Forall_app. Qed.
Lemma KL_cons x A : KL (x :: A) ↔ S (r_key x) ∧ KL A. Proof. exact (Forall_cons (λ x, S (r_key x)) x A). Qed.
Lemma KL_nil : KL [] ↔ True. Proof. split; [done|constructor]. Qed.
Ltac kl := unfold KS in *; simpl in *; rewrite ?KL_app, ?KL_cons, ?KL_nil in *; simpl in *; tauto.
Lemma KS_in p x : KS p → x ∈ q_items p → S (r_key x).
Proof.
  intros (H1 & H2 & H3). unfold q_items. rewrite !elem_of_app. unfold KL in *. rewrite Forall_forall in H1, H2, H3. naive_solver.
Qed.
Lemma KS_list p st L : KS p → KL L → KS (put_list p st L).
Proof. destruct st; kl. Qed.
Lemma KS_back p x : KS p → S (r_key x) → KS (to_back p x).
Proof. intros H Hx. unfold to_back. destruct (weightless x); [kl|]. apply KS_list; [done|]. destruct (r_state x); kl. Qed.
Lemma KS_at p st : KS p → KL (q_list p st).
Proof. destruct st; kl. Qed.
Lemma KS_leave p x q : leave p x q → KS p → KS q.
Proof.
  intros H Hp. destruct H as [st A B HL|A B HL].
  - apply KS_list; [done|]. pose proof (KS_at p st Hp) as H. rewrite HL in H. kl.
  - unfold KS in *. rewrite HL in Hp. kl.
Qed.
Lemma KS_turn p x y q : turn p x y q → S (r_key y) → KS p → KS q.
Proof.
  intros H Hy Hp. destruct H as [st A B HL Hw|A B HL Hw|st A B HL Hw|A B HL Hw].
  - apply KS_list; [done|]. pose proof (KS_at p st Hp) as H. rewrite HL in H. kl.
  - unfold KS in *. rewrite HL in Hp. kl.
  - assert (KS (put_list p st (B ++ A))) as H1. { apply KS_list; [done|]. pose proof (KS_at p st Hp) as H. rewrite HL in H. kl. }
    assert (KL (q_idle p)) as H2 by kl. kl.
  - apply KS_back; [|done]. unfold KS in *. rewrite HL in Hp. kl.
Qed.
Lemma KL_clock seen A B L o : clock seen A B L o → KL A → KL B → KL L ∧ ∀ x, o = Some x → S (r_key x).
Proof.
  induction 1 as [seen A L o HA H IH|A x Hp|seen A x B L o Hp Hs H IH|seen A x B L o Hp Hr H IH|seen A x B Hp Hr]; intros H1 H2.
  - apply IH; [apply KL_nil; done|done].
  - split; [kl|done].
  - apply IH; kl.
  - apply IH; kl.
  - split; [kl|]. intros y [= <-]. kl.
Qed.
Lemma KS_drop_hot p l x q l' : drop_hot p l x = (q, l') → S (r_key x) → KS p → KS q.
Proof. unfold drop_hot. destruct (call_before _ _ _) as [l1 v1]. destruct (weightless _); intros [= <- <-]; kl. Qed.
Lemma KS_drop_cold lim p l x q l' : drop_cold lim p l x = (q, l') → S (r_key x) → KS p → KS q.
Proof. unfold drop_cold. destruct (call_before _ _ _) as [l1 v1]. destruct (weightless _); intros [= <- <-]; kl. Qed.
Lemma KS_hot_hand p l q l' b : hot_hand p l q l' b → KS p → KS q.
Proof.
  intros [H|L Hn H|L x q1 l1 H Hd] Hp; [done|..]; apply KL_clock in H as [H1 H2]; try apply KL_nil; try done; try apply Hp.
  - kl.
  - eapply KS_drop_hot; [done|by apply H2|kl].
Qed.
Lemma KS_trim lim p l q l' : trim lim p l q l' → KS p → KS q.
Proof. induction 1 as [p l Hle|p l q l' Hlt H|p l q1 l1 q l' Hlt H Ht IH]; intros Hp; [done|by eapply KS_hot_hand|]. apply IH. by eapply KS_hot_hand. Qed.
Lemma KS_cold_hand lim p l q l' b : cold_hand lim p l q l' b → KS p → KS q.
Proof.
  intros [q1 l1 b1 Hs H|A x B q1 l1 HL HA Hr H|A x B q1 l1 HL HA Hr Hpn H] Hp.
  - by eapply KS_hot_hand.
  - eapply KS_trim; [done|]. unfold KS in Hp. rewrite HL in Hp. apply KS_back; kl.
  - unfold KS in Hp. rewrite HL in Hp. eapply KS_drop_cold; [done|kl|kl].
Qed.
Lemma KS_room lim extra p l q l' : make_room lim extra p l q l' → KS p → KS q.
Proof. induction 1 as [p l Hle|p l q l' Hlt H|p l q1 l1 q l' Hlt H Ht IH]; intros Hp; [done|by eapply KS_cold_hand|]. apply IH. by eapply KS_cold_hand. Qed.

Definition hk x : N := hash P (r_key x).
Definition marks p : list N := map hk (q_hot p) ++ map hk (q_cold p) ++ map hk (q_idle p) ++ q_ghosts p.
Record W p : Prop := {
  W_nd : NoDup (marks p);
  W_new : ∀ k, q_loads p k ≠ None → hash P k ∉ marks p;
  W_eq : ∀ k k', keqb P k k' = true → q_loads p k = q_loads p k';
  W_key : ∀ k k0 st, q_loads p k = Some (k0, st) → keqb P k k0 = true;
  W_in : KS p;
  W_ld : ∀ k k0 st, q_loads p k = Some (k0, st) → S k0;
}.
Lemma W_empty : W q_empty.
Proof. split; simpl; [constructor|done|done|done|split_and!; constructor|done]. Qed.
Lemma W_sub p q : W p → marks q ⊆+ marks p → q_loads q = q_loads p → (KS p → KS q) → W q.
Proof.
  intros [H1 H2 H3 H4 H5 H6] Hs Hq Hk. split; rewrite ?Hq; try done.
  - apply submseteq_Permutation in Hs as [G HG]. rewrite HG in H1. by apply NoDup_app in H1 as [? _].
  - intros k Hk1 Hin. apply (H2 k Hk1). by eapply elem_of_submseteq.
  - by apply Hk.
Qed.
Lemma keq_hash k k' : keqb P k k' = true → hash P k = hash P k'.
Proof. apply (hash_keqb _ LW). Qed.
Lemma keq_same k k' : keqb P k k' = true → ∀ k'', keqb P k k'' = keqb P k' k''.
Proof.
  intros H k''. apply eq_true_iff_eq. split; intros H2; eapply (keqb_trans _ LW); try exact H2; [|done]. by apply (keqb_sym _ LW).
Qed.

Lemma items_marks p x : x ∈ q_items p → hk x ∈ marks p.
Proof.
  unfold q_items, marks. rewrite !elem_of_app. intros [?|[?|?]]; [left|right; left|right; right; left]; by apply elem_of_list_fmap_1.
Qed.
Lemma marks_item p h : h ∈ marks p → (∃ x, x ∈ q_items p ∧ hk x = h) ∨ h ∈ q_ghosts p.
Proof.
  unfold q_items, marks. rewrite !elem_of_app. intros [H|[H|[H|H]]]; try (by right); left;
    apply elem_of_list_fmap in H as (x & -> & Hx); exists x; (split; [|done]); rewrite !elem_of_app; auto.
Qed.
Lemma no_item_marks p k : KS p → S k → no_item p k → hash P k ∉ q_ghosts p → hash P k ∉ marks p.
Proof.
  intros HS Hs Hn Hg [(x & Hx & Hk)|Hk]%marks_item; [|done]. pose proof (KS_in _ _ HS Hx) as Hi. apply Hn in Hx. apply not_true_iff_false in Hx.
  apply Hx, Hinj; [done..|]. by rewrite <-Hk.
Qed.

(* lists change by pieces *)
Lemma leave_marks p x q : leave p x q → marks q ⊆+ marks p ∧ q_loads q = q_loads p.
Proof.
  intros H. destruct H as [[] A B HL|A B HL]; simpl in HL; (split; [|done]); unfold marks; simpl; rewrite HL, !map_app; simpl; solve_submseteq.
Qed.
Lemma to_back_marks p x : marks (to_back p x) ≡ₚ hk x :: marks p ∧ q_loads (to_back p x) = q_loads p.
Proof.
  unfold to_back. destruct (weightless x); [split; [|done]|destruct (r_state x); (split; [|done])]; unfold marks; simpl; rewrite !map_app; simpl; solve_Permutation.
Qed.
Lemma turn_marks p x y q : turn p x y q → hk y = hk x → marks q ≡ₚ marks p ∧ q_loads q = q_loads p.
Proof.
  intros H Hk. destruct H as [[] A B HL Hw|A B HL Hw|[] A B HL Hw|A B HL Hw]; simpl in HL.
  1,2,3,4,5: (split; [|done]); unfold marks; simpl; rewrite HL, !map_app; simpl; rewrite ?Hk, ?map_app; simpl; rewrite ?Hk; solve_Permutation.
  destruct (to_back_marks (put_idle p (A ++ B)) y) as [-> Hl]. split; [|by rewrite Hl]. unfold marks. simpl. rewrite HL, Hk, !map_app. simpl. solve_Permutation.
Qed.

Definition mopt (o : option item) : list N := match o with Some x => [hk x] | None => [] end.
Lemma clock_marks seen A B L o : clock seen A B L o → map hk L ++ mopt o ≡ₚ map hk A ++ map hk B.
Proof.
  induction 1 as [seen A L o HA H IH|A x Hp|seen A x B L o Hp Hs H IH|seen A x B L o Hp Hr H IH|seen A x B Hp Hr]; simpl in *.
  - rewrite IH. solve_Permutation.
  - rewrite !map_app. simpl. rewrite app_nil_r. done.
  - rewrite IH, !map_app. simpl. change (hk (used_less x)) with (hk x). solve_Permutation.
  - rewrite IH, !map_app. simpl. change (hk (used_less x)) with (hk x). solve_Permutation.
  - rewrite !map_app. simpl. solve_Permutation.
Qed.
Definition less p q : Prop := marks q ⊆+ marks p ∧ q_loads q = q_loads p ∧ (KS p → KS q).
Lemma less_refl p : less p p. Proof. by split_and!. Qed.
Lemma less_trans p q r : less p q → less q r → less p r.
Proof. intros (H1 & H2 & H5) (H3 & H4 & H6). split_and!; [by etrans|by rewrite H4|auto]. Qed.
Lemma drop_hot_less p l x q l' : drop_hot p l x = (q, l') → marks q ⊆+ hk x :: marks p ∧ q_loads q = q_loads p.
Proof.
  unfold drop_hot. destruct (call_before _ _ _) as [l1 v1]. destruct (weightless _); intros [= <- <-]; (split; [|done]).
  - unfold marks. simpl. rewrite map_app. simpl. change (hk (put_val x v1)) with (hk x). solve_submseteq.
  - apply submseteq_cons. done.
Qed.
Lemma drop_cold_less lim p l x q l' : drop_cold lim p l x = (q, l') → marks q ⊆+ hk x :: marks p ∧ q_loads q = q_loads p.
Proof.
  unfold drop_cold. destruct (call_before _ _ _) as [l1 v1]. destruct (weightless _); intros [= <- <-]; (split; [|done]).
  - unfold marks. simpl. rewrite map_app. simpl. change (hk (put_val x v1)) with (hk x). solve_submseteq.
  - unfold marks. simpl. fold (hk x).
    assert (∀ G : list N, tail G ⊆+ G) as Ht by (intros [|g G]; [done|by apply submseteq_cons]).
    transitivity (map hk (q_hot p) ++ map hk (q_cold p) ++ map hk (q_idle p) ++ q_ghosts p ++ [hk x]); [|solve_submseteq].
    repeat apply submseteq_skips_l. destruct (_ <? _)%N; [apply Ht|done].
Qed.
Lemma hot_hand_less p l q l' b : hot_hand p l q l' b → less p q.
Proof.
  intros H0. enough (marks q ⊆+ marks p ∧ q_loads q = q_loads p) as [? ?] by (split_and!; [done..|]; by eapply KS_hot_hand).
  destruct H0 as [H|L Hn H|L x q1 l1 H Hd].
  - done.
  - apply clock_marks in H. simpl in H. rewrite app_nil_r in H. split; [|done]. unfold marks. simpl. rewrite H. done.
  - apply clock_marks in H. simpl in H. destruct (drop_hot_less _ _ _ _ _ Hd) as [H1 H2]. split; [|by rewrite H2].
    rewrite H1. unfold marks. simpl. rewrite <-H. solve_submseteq.
Qed.
Lemma trim_less lim p l q l' : trim lim p l q l' → less p q.
Proof.
  induction 1 as [p l Hle|p l q l' Hlt H|p l q1 l1 q l' Hlt H Ht IH]; [apply less_refl|by eapply hot_hand_less|].
  eapply less_trans; [by eapply hot_hand_less|done].
Qed.
Lemma cold_hand_less lim p l q l' b : cold_hand lim p l q l' b → less p q.
Proof.
  intros H0. enough (marks q ⊆+ marks p ∧ q_loads q = q_loads p) as [? ?] by (split_and!; [done..|]; by eapply KS_cold_hand).
  destruct H0 as [q1 l1 b1 Hs H|A x B q1 l1 HL HA Hr H|A x B q1 l1 HL HA Hr Hp H].
  - by destruct (hot_hand_less _ _ _ _ _ H) as (? & ? & _).
  - destruct (trim_less _ _ _ _ _ H) as (T1 & T2 & _). destruct (to_back_marks (put_cold p (B ++ A)) (Res (r_key x) (r_val x) Hot (r_ref x - 1))) as [H1 H2].
    split; [|by rewrite T2, H2]. rewrite T1, H1. unfold marks. simpl. rewrite HL, !map_app. simpl. change (hk (Res _ _ _ _)) with (hk x). solve_submseteq.
  - destruct (drop_cold_less _ _ _ _ _ _ H) as [H1 H2]. split; [|by rewrite H2]. rewrite H1. unfold marks. simpl. rewrite HL, !map_app. simpl. solve_submseteq.
Qed.
Lemma make_room_less lim extra p l q l' : make_room lim extra p l q l' → less p q.
Proof.
  induction 1 as [p l Hle|p l q l' Hlt H|p l q1 l1 q l' Hlt H Ht IH]; [apply less_refl|by eapply cold_hand_less|].
  eapply less_trans; [by eapply cold_hand_less|done].
Qed.
Lemma W_less p q : W p → less p q → W q.
Proof. intros HW (H1 & H2 & H3). by eapply W_sub. Qed.

(* a key that is neither cached, nor remembered, nor loaded enters *)
Lemma W_to_back p x : W p → hk x ∉ marks p → q_loads p (r_key x) = None → S (r_key x) → W (to_back p x).
Proof.
  intros [H1 H2 H3 H4 H5 H6] Hx Hl Hs. destruct (to_back_marks p x) as [E1 E2]. split; rewrite ?E2; try done.
  - rewrite E1. by constructor.
  - intros k Hk. rewrite E1. intros [He|He]%elem_of_cons; [|by eapply H2].
    destruct (q_loads p k) as [[k0 st]|] eqn:Hq; [|done]. pose proof (H4 _ _ _ Hq) as Hk0. pose proof (H6 _ _ _ Hq) as Hs0.
    assert (keqb P k0 (r_key x) = true) as Hkx. { apply Hinj; [done..|]. rewrite <-(keq_hash _ _ Hk0). exact He. }
    rewrite (H3 k (r_key x)) in Hq; [congruence|]. by eapply (keqb_trans _ LW).
  - by apply KS_back.
Qed.
Lemma W_put p k o : W p → match o with Some (k0, _) => keqb P k k0 = true ∧ hash P k ∉ marks p ∧ S k0 | None => True end → W (put_load p k o).
Proof.
  intros [H1 H2 H3 H4 H5 H6] Ho. split; simpl; try done.
  - intros k'. destruct (keqb P k k') eqn:Hk; [|apply H2]. apply keq_hash in Hk. rewrite <-Hk. destruct o as [[k0 st]|]; [|done]. by destruct Ho as (_ & ? & _).
  - intros k1 k2 Hk. assert (keqb P k k1 = keqb P k k2) as ->.
    { apply eq_true_iff_eq. split; intros H; eapply (keqb_trans _ LW); try exact H; [done|]. by apply (keqb_sym _ LW). }
    destruct (keqb P k k2); [done|]. by apply H3.
  - intros k1 k0 st. destruct (keqb P k k1) eqn:Hk; [|apply H4]. intros ->. destruct Ho as [Ho _]. eapply (keqb_trans _ LW); [|exact Ho]. by apply (keqb_sym _ LW).
  - intros k1 k0 st. destruct (keqb P k k1) eqn:Hk; [|apply H6]. intros ->. by destruct Ho as (_ & _ & ?).
Qed.
Lemma put_load_same p k o k' : keqb P k k' = true → q_loads (put_load p k o) k' = o.
Proof. simpl. by intros ->. Qed.
Lemma loading_key p k k0 st : W p → loading p k k0 st → keqb P k k0 = true ∧ hash P k ∉ marks p ∧ S k0.
Proof.
  intros HW [_ Hl]. pose proof (W_key _ HW _ _ _ Hl) as Hk. pose proof (W_new _ HW k) as Hn. rewrite Hl in Hn. specialize (Hn ltac:(done)).
  split_and!; [done..|]. exact (W_ld _ HW _ _ _ Hl).
Qed.
Lemma ghost_less p k q : W p → ghost_of p k q → less p q ∧ hash P k ∉ marks q ∧ q_loads p k = None.
Proof.
  intros HW (Hn & Hl & G1 & G2 & HG & ->). split_and!; [|..|done].
  - split; [|done..]. unfold marks. simpl. rewrite HG. solve_submseteq.
  - pose proof (W_nd _ HW) as Hd. assert (marks p ≡ₚ hash P k :: marks (put_ghosts p (G1 ++ G2))) as E.
    { unfold marks. simpl. rewrite HG. solve_Permutation. }
    rewrite E in Hd. by apply NoDup_cons in Hd as [? _].
Qed.
Lemma unknown_marks p k : KS p → S k → unknown p k → hash P k ∉ marks p ∧ q_loads p k = None.
Proof. intros HS Hs (Hn & Hl & Hg). split; [by apply no_item_marks|done]. Qed.
Lemma less_notin p q h : less p q → h ∉ marks p → h ∉ marks q.
Proof. intros [H _] Hn Hi. apply Hn. by eapply elem_of_submseteq. Qed.

Lemma inserting_W lim p l k v strat q l' o : W p → S k → inserting lim p l k v strat q l' o → W q.
Proof.
  intros HW HS H. destruct H as [strat l1 v1 x q _ _ _ Hlv|strat l1 v1 _ _ _|strat l1 v1 x q1 q l' _ _ [_ Hk] Ht Hm|strat l1 v1 _ _ _ _|l1 v1 k0 st q l' _ _ Hl Hm|l1 v1 q1 q l' _ _ Hg Hm|l1 v1 q l' _ _ Hu Hm].
  - eapply W_less; [done|]. destruct (leave_marks _ _ _ Hlv). split_and!; [done..|]. by eapply KS_leave.
  - done.
  - destruct (turn_marks _ _ _ _ Ht) as [E1 E2]; [unfold hk; simpl; by apply keq_hash|].
    eapply W_less; [|by eapply make_room_less]. eapply W_sub; [done|by rewrite E1|done|]. by eapply KS_turn.
  - done.
  - eapply W_less; [|by eapply make_room_less]. apply W_to_back; [by apply W_put| |by apply put_load_same, (keqb_refl _ LW)|done].
    by destruct (loading_key _ _ _ _ HW Hl) as (_ & ? & _).
  - eapply W_less; [|by eapply make_room_less]. destruct (ghost_less _ _ _ HW Hg) as (Hls & Hn & Hl).
    apply W_to_back; [by eapply W_less|done| |done]. destruct Hls as (_ & -> & _). done.
  - apply make_room_less in Hm as Hls. destruct (unknown_marks _ _ (W_in _ HW) HS Hu) as [Hn Hl].
    apply W_to_back; [by eapply W_less|by eapply less_notin| |done]. destruct Hls as (_ & -> & _). done.
Qed.
Lemma start_load_W p k q k0 st : W p → S k → start_load p k q k0 st → W q ∧ loading q k0 k0 st.
Proof.
  intros HW HS H. destruct H as [k0 st Hl|q Hg|Hu].
  - split; [done|]. destruct (loading_key _ _ _ _ HW Hl) as (Hk & _). destruct Hl as [Hn Hl]. split.
    + intros x Hx. rewrite <-(keq_same _ _ Hk). by apply Hn.
    + by rewrite <-(W_eq _ HW k k0 Hk).
  - destruct (ghost_less _ _ _ HW Hg) as (Hls & Hn & _). destruct Hg as (Hi & _ & G1 & G2 & _ & ->).
    split; [apply W_put; [by eapply W_less|]; split_and!; [apply (keqb_refl _ LW)|done|done]|]. split; [exact Hi|]. by apply put_load_same, (keqb_refl _ LW).
  - destruct (unknown_marks _ _ (W_in _ HW) HS Hu) as [Hn _]. destruct Hu as [Hi _].
    split; [apply W_put; [done|]; split_and!; [apply (keqb_refl _ LW)|done|done]|]. split; [exact Hi|]. by apply put_load_same, (keqb_refl _ LW).
Qed.
Lemma filling_W lim n p l k st v q l' : W p → loading p k k st → filling lim n p l k st v q l' → W q.
Proof.
  intros HW Hl [l1 v1 _ _|l1 v1 q0 q1 l2 _ _ -> H].
  - by apply W_put.
  - assert (∀ st', W (to_back (put_load p k None) (Res k v1 st' n))) as Hb.
    { intros st'. apply W_to_back; [by apply W_put| |by apply put_load_same, (keqb_refl _ LW)|by destruct (loading_key _ _ _ _ HW Hl) as (_ & _ & ?)]. by destruct (loading_key _ _ _ _ HW Hl) as (_ & ? & _). }
    destruct (_ =? 0)%N; [destruct H as [-> _]; apply Hb|]. eapply W_less; [apply Hb|by eapply make_room_less].
Qed.
Lemma turn_in p x y q : turn p x y q → x ∈ q_items p.
Proof.
  intros H. destruct H as [[] A B HL Hw|A B HL Hw|[] A B HL Hw|A B HL Hw]; simpl in HL; unfold q_items; rewrite HL, !elem_of_app, ?elem_of_cons; tauto.
Qed.
Lemma turn_W p x y q : W p → turn p x y q → r_key y = r_key x → W q.
Proof.
  intros HW Ht Hk. destruct (turn_marks _ _ _ _ Ht) as [E1 E2]; [unfold hk; by rewrite Hk|]. eapply W_sub; [done|by rewrite E1|done|]. intros HS. eapply KS_turn; [done| |done]. rewrite Hk. apply (KS_in p); [done|]. by eapply turn_in.
Qed.
Lemma writing_W p k f o q : W p → writing p k f o q → W q.
Proof. intros HW [x q1 _ Ht|_]; [|done]. by eapply turn_W. Qed.
Lemma guard_W lim p rs k st g o q : W p → loading p k k st → guard_ends lim p rs k st g o q → W q.
Proof. intros HW Hl [v wl q1 l' Hf| |]; [by eapply filling_W|by apply W_put|done]. Qed.
Lemma filter_sub (f : item → bool) (L : list item) : List.filter f L ⊆+ L.
Proof. induction L as [|x L IH]; simpl; [done|]. destruct (f x); [by apply submseteq_skip|by apply submseteq_cons]. Qed.
Lemma map_sub (L L' : list item) : L ⊆+ L' → map hk L ⊆+ map hk L'.
Proof. apply (fmap_submseteq hk). Qed.
Lemma pstep_W lim p c o q : W p → (∀ k, names c = Some k → S k) → pstep lim p c o q → W q.
Proof.
  intros HW HS H. destruct H; try done; simpl in HS; try (by eapply turn_W); try (by eapply inserting_W; eauto); try (by eapply writing_W);
    try apply W_empty;
    try (match goal with H : start_load _ _ _ _ _ |- _ => destruct (start_load_W _ _ _ _ _ HW (HS _ eq_refl) H) as [HW1 Hl1] end);
    try done; try (by eapply filling_W); try (by eapply guard_W).
  - eapply W_less; [done|]. match goal with H : leave _ _ _ |- _ => destruct (leave_marks _ _ _ H); split_and!; [done..|]; by eapply KS_leave end.
  - by apply W_put.
  - eapply W_less; [done|]. by eapply ghost_less.
  - eapply W_sub; [done| |done|].
    + unfold marks, keep. simpl. repeat apply submseteq_app; try done; apply map_sub, filter_sub.
    + intros (K1 & K2 & K3). unfold KS, KL, keep in *. simpl. rewrite !Forall_forall in *.
      split_and!; intros x Hx; pose proof (elem_of_submseteq _ _ _ Hx (filter_sub _ _)); auto.
  - eapply writing_W; [|done]. by eapply filling_W.
Qed.

(* ---- one way only ---- *)
Lemma map_inj (L : list item) x y : NoDup (map hk L) → x ∈ L → y ∈ L → hk x = hk y → x = y.
Proof.
  intros Hd Hx Hy He. apply elem_of_list_lookup in Hx as [i Hi], Hy as [j Hj].
  assert (i = j) as ->.
  { eapply (NoDup_lookup (map hk L)); [done| |]; change (map hk L) with (hk <$> L); rewrite list_lookup_fmap, ?Hi, ?Hj; simpl; [done|]. by rewrite He. }
  congruence.
Qed.
Lemma W_items p : W p → NoDup (map hk (q_items p)).
Proof.
  intros HW. pose proof (W_nd _ HW) as Hd. unfold marks in Hd. rewrite !app_assoc in Hd. apply NoDup_app in Hd as [Hd _].
  unfold q_items. rewrite !map_app. by rewrite app_assoc.
Qed.
Lemma item_one p k x y : W p → item_of p k x → item_of p k y → y = x.
Proof.
  intros HW [Hx Hkx] [Hy Hky]. eapply map_inj; [by apply W_items|done|done|]. apply keq_hash in Hkx, Hky. unfold hk. congruence.
Qed.
Lemma item_not p k x : item_of p k x → ¬ no_item p k.
Proof. intros [Hx Hk] Hn. apply Hn in Hx. congruence. Qed.
Lemma split_one L A x B A' B' : NoDup (map hk L) → L = A ++ x :: B → L = A' ++ x :: B' → A' = A ∧ B' = B.
Proof.
  intros Hd -> He. revert A' He Hd. induction A as [|a A IH]; intros [|a' A'] He Hd; simpl in *.
  - by injection He as ->.
  - exfalso. injection He as -> ->. apply NoDup_cons in Hd as [Hn _]. apply Hn. rewrite map_app. apply elem_of_app. right. left.
  - exfalso. injection He as -> <-. apply NoDup_cons in Hd as [Hn _]. apply Hn. rewrite map_app. apply elem_of_app. right. left.
  - injection He as <- He. apply NoDup_cons in Hd as [_ Hd]. by destruct (IH A' He Hd) as [-> ->].
Qed.
Lemma W_lists p : W p → NoDup (map hk (q_hot p)) ∧ NoDup (map hk (q_cold p)) ∧ NoDup (map hk (q_idle p)) ∧
  (∀ x, x ∈ q_hot p → x ∈ q_cold p → False) ∧ (∀ x, x ∈ q_hot p → x ∈ q_idle p → False) ∧ (∀ x, x ∈ q_cold p → x ∈ q_idle p → False).
Proof.
  intros HW%W_items. unfold q_items in HW. rewrite !map_app in HW. apply NoDup_app in HW as (H1 & H2 & H3). apply NoDup_app in H3 as (H3 & H4 & H5).
  split_and!; try done; intros x Hx Hy; apply (elem_of_list_fmap_1 hk) in Hx, Hy.
  - apply (H2 _ Hx), elem_of_app. by left.
  - apply (H2 _ Hx), elem_of_app. by right.
  - by apply (H4 _ Hx).
Qed.
Lemma list_one p st st' x A B A' B' : W p → q_list p st = A ++ x :: B → q_list p st' = A' ++ x :: B' → st' = st ∧ A' = A ∧ B' = B.
Proof.
  intros HW HL HL'. destruct (W_lists _ HW) as (H1 & H2 & H3 & H4 & _).
  assert (x ∈ q_list p st ∧ x ∈ q_list p st') as [Hx Hx'] by (rewrite HL, HL'; split; apply elem_of_app; right; left).
  destruct st, st'; simpl in *; try (by destruct (H4 x)); (split; [done|]); [exact (split_one _ _ _ _ _ _ H1 HL HL')|exact (split_one _ _ _ _ _ _ H2 HL HL')].
Qed.
Lemma list_idle p st x A B A' B' : W p → q_list p st = A ++ x :: B → q_idle p = A' ++ x :: B' → False.
Proof.
  intros HW HL HL'. destruct (W_lists _ HW) as (_ & _ & _ & _ & H4 & H5).
  assert (x ∈ q_list p st ∧ x ∈ q_idle p) as [Hx Hx'] by (rewrite HL, HL'; split; apply elem_of_app; right; left).
  destruct st; [by eapply H4|by eapply H5].
Qed.
Lemma idle_one p x A B A' B' : W p → q_idle p = A ++ x :: B → q_idle p = A' ++ x :: B' → A' = A ∧ B' = B.
Proof. intros HW HL HL'. destruct (W_lists _ HW) as (_ & _ & H3 & _). exact (split_one _ _ _ _ _ _ H3 HL HL'). Qed.
Ltac places := match goal with
  | HW : W ?p, H1 : q_list ?p _ = _ ++ ?x :: _, H2 : q_list ?p _ = _ ++ ?x :: _ |- _ => destruct (list_one _ _ _ _ _ _ _ _ HW H1 H2) as (-> & -> & ->); clear H2
  | HW : W ?p, H1 : q_list ?p _ = _ ++ ?x :: _, H2 : q_idle ?p = _ ++ ?x :: _ |- _ => destruct (list_idle _ _ _ _ _ _ _ HW H1 H2)
  | HW : W ?p, H1 : q_idle ?p = _ ++ ?x :: _, H2 : q_idle ?p = _ ++ ?x :: _ |- _ => destruct (idle_one _ _ _ _ _ _ HW H1 H2) as (-> & ->); clear H2
  end.
Lemma leave_det p x q q' : W p → leave p x q → leave p x q' → q' = q.
Proof. intros HW [] H2; inversion H2; subst; places; done. Qed.
Lemma turn_det p x y q q' : W p → turn p x y q → turn p x y q' → q' = q.
Proof. intros HW [] H2; inversion H2; subst; places; first [done|congruence]. Qed.
Lemma ghost_det p k q q' : W p → ghost_of p k q → ghost_of p k q' → q' = q.
Proof.
  intros HW (_ & _ & G1 & G2 & HG & ->) (_ & _ & G1' & G2' & HG' & ->).
  assert (NoDup (q_ghosts p)) as Hd. { pose proof (W_nd _ HW) as Hd. unfold marks in Hd. rewrite !app_assoc in Hd. by apply NoDup_app in Hd as (_ & _ & ?). }
  rewrite HG in Hd, HG'. clear HG. assert (G1' ++ G2' = G1 ++ G2) as E; [|by rewrite E].
  revert G1' HG' Hd. induction G1 as [|a G1 IH]; intros [|a' G1'] He Hd; simpl in *.
  - by injection He as ->.
  - exfalso. injection He as He1 He2. apply NoDup_cons in Hd as [Hn _]. apply Hn. rewrite He2. apply elem_of_app. right. left.
  - exfalso. injection He as He1 He2. apply NoDup_cons in Hd as [Hn _]. apply Hn. rewrite He1. apply elem_of_app. right. left.
  - injection He as <- He. apply NoDup_cons in Hd as [_ Hd]. by rewrite (IH _ He Hd).
Qed.

Ltac clash := exfalso; match goal with
  | H1 : item_of ?p ?k _, H2 : no_item ?p ?k |- _ => exact (item_not _ _ _ H1 H2)
  | H1 : item_of ?p ?k _, H2 : loading ?p ?k _ _ |- _ => exact (item_not _ _ _ H1 (proj1 H2))
  | H1 : item_of ?p ?k _, H2 : ghost_of ?p ?k _ |- _ => exact (item_not _ _ _ H1 (proj1 H2))
  | H1 : item_of ?p ?k _, H2 : unknown ?p ?k |- _ => exact (item_not _ _ _ H1 (proj1 H2))
  | H1 : item_of ?p ?k _, H2 : start_load ?p ?k _ _ _ |- _ => inversion H2; subst; clear H2; clash
  | H1 : loading ?p ?k _ _, H2 : ghost_of ?p ?k _ |- _ => destruct H1 as [_ H1], H2 as (_ & H2 & _); congruence
  | H1 : loading ?p ?k _ _, H2 : unknown ?p ?k |- _ => destruct H1 as [_ H1], H2 as (_ & H2 & _); congruence
  | H1 : ghost_of ?p ?k _, H2 : unknown ?p ?k |- _ => destruct H1 as (_ & _ & ? & ? & H1 & _), H2 as (_ & _ & H2); apply H2; rewrite H1; apply elem_of_app; right; left
  end.
Ltac same := repeat match goal with
  | H1 : shown ?a ?b ?c ?d = _, H2 : shown ?a ?b ?c ?d = _ |- _ => rewrite H1 in H2; injection H2 as <- <-
  | HW : W ?p, H1 : item_of ?p ?k ?x, H2 : item_of ?p ?k ?y |- _ => destruct (item_one _ _ _ _ HW H1 H2); clear H2
  | HW : W ?p, H1 : leave ?p ?x ?q, H2 : leave ?p ?x ?q' |- _ => destruct (leave_det _ _ _ _ HW H1 H2); clear H2
  | HW : W ?p, H1 : turn ?p ?x ?y ?q, H2 : turn ?p ?x ?y ?q' |- _ => destruct (turn_det _ _ _ _ _ HW H1 H2); clear H2
  | HW : W ?p, H1 : ghost_of ?p ?k ?q, H2 : ghost_of ?p ?k ?q' |- _ => destruct (ghost_det _ _ _ _ HW H1 H2); clear H2
  | H1 : make_room ?a ?b ?c ?d _ _, H2 : make_room ?a ?b ?c ?d _ _ |- _ => destruct (make_room_det _ _ _ _ _ _ H1 _ _ H2) as [-> ->]; clear H2
  | H1 : loading ?p ?k _ _, H2 : loading ?p ?k _ _ |- _ => let E := fresh in assert (E := proj2 H2); rewrite (proj2 H1) in E; injection E as <- <-; clear H2
  end.
Lemma inserting_det lim p l k v strat q l' o q2 l2 o2 : W p → inserting lim p l k v strat q l' o → inserting lim p l k v strat q2 l2 o2 →
  q2 = q ∧ l2 = l' ∧ o2 = o.
Proof.
  intros HW H H2. destruct H; inversion H2; subst; same; try congruence; try clash; try done.
Qed.

Lemma start_det p k q k0 st q' k0' st' : W p → start_load p k q k0 st → start_load p k q' k0' st' → q' = q ∧ k0' = k0 ∧ st' = st.
Proof. intros HW H H2. destruct H; inversion H2; subst; same; try clash; done. Qed.
Lemma filling_det lim n p l k st v q l' q2 l2 : filling lim n p l k st v q l' → filling lim n p l k st v q2 l2 → q2 = q ∧ l2 = l'.
Proof.
  intros H H2. destruct H as [l1 v1 Hs Hh|l1 v1 q q1 l' Hs Hh E H]; inversion H2 as [l3 v3 Hs3 Hh3|l3 v3 q3 q4 l4 Hs3 Hh3 E3 H3]; subst; same; try congruence; [done|].
  destruct (_ =? 0)%N; [destruct H as [-> ->], H3 as [-> ->]; done|]. same. done.
Qed.
Lemma reading_det p k o o' : W p → reading p k o → reading p k o' → o' = o.
Proof. intros HW [x Hx|Hn] H2; inversion H2; subst; same; try clash; done. Qed.
Lemma writing_det p k f o q o' q' : W p → writing p k f o q → writing p k f o' q' → o' = o ∧ q' = q.
Proof. intros HW [x q1 Hx Ht|Hn] H2; inversion H2; subst; same; try clash; done. Qed.
Lemma guard_det lim p rs k st g o q o' q' : guard_ends lim p rs k st g o q → guard_ends lim p rs k st g o' q' → o' = o ∧ q' = q.
Proof.
  intros [v wl q1 l' Hf| |] H2; inversion H2 as [v2 wl2 q2 l2 Hf2| |]; subst; [|done|done].
  by destruct (filling_det _ _ _ _ _ _ _ _ _ _ _ Hf Hf2) as [-> ->].
Qed.
Lemma pstep_det lim p c o q o' q' : W p → (∀ k, names c = Some k → S k) → pstep lim p c o q → pstep lim p c o' q' → same_out o o' ∧ q' = q.
Proof.
  intros HW HS H H2. assert (∀ o : out P, same_out o o) as Hrefl by (intros [r lg c1 st]; unfold same_out; simpl; destruct r; split_and!; reflexivity).
  destruct H; inversion H2; subst; same; try clash;
    repeat match goal with
    | H1 : start_load ?p ?k _ _ _, H2 : start_load ?p ?k _ _ _ |- _ =>
        destruct (start_det _ _ _ _ _ _ _ _ HW H1 H2) as (-> & -> & ->); clear H2
    | H1 : filling ?a ?g ?b ?c ?d ?e ?f _ _, H2 : filling ?a ?g ?b ?c ?d ?e ?f _ _ |- _ =>
        destruct (filling_det _ _ _ _ _ _ _ _ _ _ _ H1 H2) as [-> ->]; clear H2
    | H1 : guard_ends ?a ?b ?c ?d ?e ?f _ _, H2 : guard_ends ?a ?b ?c ?d ?e ?f _ _ |- _ =>
        destruct (guard_det _ _ _ _ _ _ _ _ _ _ H1 H2) as [-> ->]; clear H2
    | H1 : inserting ?a ?b ?c ?d ?e ?f _ _ _, H2 : inserting ?a ?b ?c ?d ?e ?f _ _ _ |- _ =>
        destruct (inserting_det _ _ _ _ _ _ _ _ _ _ _ _ HW H1 H2) as (-> & -> & [=]); subst; clear H2
    | H1 : reading ?p ?k _, H2 : reading ?p ?k _, HW : W ?p |- _ => destruct (reading_det _ _ _ _ HW H1 H2); clear H2
    | H1 : writing ?p ?k ?f _ _, H2 : writing ?p ?k ?f _ _, HW : W ?p |- _ => destruct (writing_det _ _ _ _ _ _ _ HW H1 H2) as [-> ->]; clear H2
    end; try (split; [apply Hrefl|done]).
  all: try match goal with H1 : start_load _ _ _ _ _ |- _ => destruct (start_load_W _ _ _ _ _ HW (HS _ eq_refl) H1) as [HW1 Hl1] end.
  all: try match goal with H1 : filling _ _ _ _ _ _ _ _ _ |- _ => pose proof (filling_W _ _ _ _ _ _ _ _ _ HW1 Hl1 H1) as HW2 end.
  - assert (b = b0) as ->; [apply eq_true_iff_eq; match goal with H1 : b = true ↔ _, H2 : b0 = true ↔ _ |- _ => by rewrite H1, H2 end|]. split; [apply Hrefl|done].
  - split; [|done]. repeat split. simpl. etrans; [done|]. by symmetry.
  - match goal with H1 : reading ?p ?k _, H2 : reading ?p ?k _ |- _ => destruct (reading_det _ _ _ _ HW2 H1 H2) end. split; [apply Hrefl|done].
  - match goal with H1 : writing ?p ?k ?f _ _, H2 : writing ?p ?k ?f _ _ |- _ => destruct (writing_det _ _ _ _ _ _ _ HW2 H1 H2) as [-> ->] end. split; [apply Hrefl|done].
Qed.
Lemma omap_later c (h : list (cmd P)) k : k ∈ omap names h → k ∈ omap names (c :: h).
Proof. rewrite !elem_of_list_omap. intros (c' & ? & ?). exists c'. split; [by right|done]. Qed.
Lemma psteps_det lim h : (∀ k, k ∈ omap names h → S k) → ∀ p os q os' q', W p → psteps lim p h os q → psteps lim p h os' q' → Forall2 same_out os os' ∧ q' = q.
Proof.
  induction h as [|c h IH]; intros HS p os q os' q' HW H H2; [|assert (∀ k, names c = Some k → S k) as HSc by (intros k Hk; apply HS; apply elem_of_list_omap; exists c; split; [left|done])]; inversion H; inversion H2; subst; [done|].
  match goal with H1 : pstep _ _ _ _ _, H2 : pstep _ _ _ _ _ |- _ => pose proof (pstep_W _ _ _ _ _ HW HSc H1) as HW1; destruct (pstep_det _ _ _ _ _ _ _ HW HSc H1 H2) as [Ho ->]; clear H1 H2 end.
  match goal with H1 : psteps _ _ h _ _, H2 : psteps _ _ h _ _ |- _ => destruct (IH (λ k Hk, HS k (omap_later _ _ _ Hk)) _ _ _ _ _ HW1 H1 H2) as [? ->] end.
  split; [by constructor|done].
Qed.
End wf.
