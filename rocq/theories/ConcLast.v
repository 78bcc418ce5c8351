(* The remaining facts for PropsConcA.v and PropsConcB.v. *)
From stdpp Require Import prelude list functions.
From Verif Require Export ConcStory.

Section conclast.
Context {P : Params} (LW : Lawful P) (PI : ptr_ids P = true).
Context {budget ghosts cap e : N}.
Notation K := (K P). Notation V := (V P). Notation RS := (RS P).
Notation shard := (shard P). Notation sys := (sys P). Notation pc := (pc P). Notation agent := (agent P).
Notation CInv := (CInv budget ghosts cap e). Notation Reach := (@Reach P (full P) budget ghosts cap e).
Implicit Types (s : shard) (k : K) (v : V) (rs : RS) (p : plh) (a b : nat) (l : loc) (j : nat) (y : sys) (x : pc) (ag : agent).
Implicit Types (c : call P) (h : list (cevent P)) (g es : list (nat * cevent P)).

Lemma guard_charge y l a : Reach y → guard_held y l a → in_charge (y_log y) l a.
Proof.
  intros HR (ag & j & p & Ha & Hpc & ->). assert (role y (pl j p) a = QGuard) as Hr by (eapply role_of; [done|by rewrite Hpc]).
  pose proof (ci_load _ _ _ _ _ (rc_c _ HR) (pl j p)) as HL. apply (in_charge_iff _ _ _ HR). split.
  - destruct (at_load y (pl j p)) as [|v|] eqn:El; [done|exfalso..].
    + apply (l_insg _ HL v El a). unfold guardish. simpl. by rewrite Hr.
    + destruct (l_term _ HL El) as (_ & _ & H). specialize (H a). simpl in H. congruence.
  - left. unfold keeps. simpl. by rewrite Hr.
Qed.
Lemma queue_waiting y l b t : Reach y → (b, t) ∈ waiting_on y l → waiting (y_log y) l b.
Proof.
  intros HR Hin. pose proof (ci_load _ _ _ _ _ (rc_c _ HR) l) as HL. destruct (l_wait _ HL _ Hin) as [H1 H2]. simpl in H1, H2.
  apply (waiting_iff _ _ _ HR). eauto.
Qed.
Lemma settled_or_not g l a : settled (P:=P) g l a ∨ ¬ settled g l a.
Proof.
  destruct (List.Exists_dec (λ z : nat * cevent P, z.1 = a ∧ match z.2 with EvPut l' _ | EvGive l' _ | EvEnd l' => l' = l | _ => False end) g) as [H|H].
  - intros [b ev]. simpl. destruct (decide (b = a)) as [->|Hn]; [|right; naive_solver].
    destruct ev; try (right; naive_solver); destruct (decide (l0 = l)) as [->|]; (by left) || (right; naive_solver).
  - left. apply List.Exists_exists in H as ([b ev] & Hin & Hb & Hm). apply elem_of_list_In in Hin. simpl in *. subst b.
    unfold settled. destruct ev; try done; subst; eauto.
  - right. intros Hs. apply H, List.Exists_exists. destruct Hs as [[v Hv]|[[b Hb]|He]]; eexists; (split; [by apply elem_of_list_In|done]).
Qed.
(* who is in charge settles the load once *)
Lemma not_again g l a ev g1 g2 : proper_log (P:=P) g → g = g1 ++ (a, ev) :: g2 → settled g1 l a →
  match ev with EvPut l' _ | EvGive l' _ | EvEnd l' => l' ≠ l | _ => True end.
Proof. intros Hp E Hs. pose proof (Hp _ _ _ _ E) as H. destruct ev; try done; simpl in H; intros ->; by destruct H as [[_ H] _]. Qed.
Definition settles_ev l (ev : cevent P) : Prop := (∃ v, ev = EvPut l v) ∨ (∃ b, ev = EvGive l b) ∨ ev = EvEnd l.
Lemma settles_once g l a (ev ev' : cevent P) : proper_log g → settles_ev l ev → settles_ev l ev' → (a, ev) ∈ g → (a, ev') ∈ g → ev = ev'.
Proof.
  intros Hp He He'. induction g as [|[d ev0] g IH] using rev_ind; [by intros ?%elem_of_nil|].
  pose proof Hp as Hp0. apply proper_init in Hp as [Hp _]. specialize (IH Hp).
  assert (∀ ev1, settles_ev l ev1 → (a, ev1) ∈ g → settled g l a) as Hst.
  { intros ev1 [[v ->]|[[b ->]| ->]] H; [left; eauto|right; left; eauto|right; by right]. }
  assert (∀ ev1, settles_ev l ev1 → (a, ev1) ∈ g → settles_ev l ev0 → d ≠ a) as Hno.
  { intros ev1 H1 H2 H3 ->. pose proof (not_again _ l a ev0 g [] Hp0 eq_refl (Hst _ H1 H2)) as H. destruct H3 as [[v ->]|[[b ->]| ->]]; done. }
  rewrite !snoc_in. intros [H1|H1] [H2|H2].
  - auto.
  - injection H2 as <- <-. by destruct (Hno _ He H1 He').
  - injection H1 as <- <-. by destruct (Hno _ He' H2 He).
  - injection H1 as _ <-. injection H2 as <-. done.
Qed.
Lemma timeout_unnoted y b : Reach y → (b, EvRet RetTimeout) ∈ y_log y → ¬ noted (y_log y) b.
Proof.
  intros HR Hr. destruct (returned_done y b HR (ex_intro _ RetTimeout Hr)) as (ag & r & Ha & Hpc & Hr' & _).
  rewrite (returned_unique _ _ _ _ HR Hr' Hr) in Hpc. by apply (np_late _ _ _ _ (ni_note _ (rc_n _ HR) _ _ Ha)).
Qed.
(* the load that was found is for the same key *)
Lemma join_key y b j k id : Reach y → (b, EvSec j (OJoin k) (SWait id)) ∈ y_log y →
  ∃ a k', (a, EvSec j (OJoin k') (SNew id)) ∈ y_log y ∧ keqb P k k' = true.
Proof.
  intros HR Hin. destruct (join_shard _ _ _ _ _ HR Hin) as [_ Hlt]. destruct (legal_at y j HR Hlt) as (s & d & _ & HL & _).
  apply elem_of_list_split in Hin as (g1 & g2 & E). rewrite E, sections_app, sections_cons, sec_of_same in HL.
  apply legal_mid in HL as (d0 & d1 & HL & Hs & _). simpl in Hs. destruct d0 as [c0 p0 n0], d1 as [c1 p1 n1]. simpl in Hs.
  destruct Hs as (_ & (k' & Hp & Hk) & _). apply (legal_pending _ _ HL id k') in Hp as (h1 & h2 & Eh & _).
  assert ((OJoin k', SNew id) ∈ sections j g1) as H by (rewrite Eh; apply elem_of_app; right; left).
  apply in_sections in H as [a Ha]. exists a, k'. split; [|done]. rewrite E. apply elem_of_app. by left.
Qed.
Lemma val_joined y b v l : Reach y → (b, EvRet (RetVal v (Some l))) ∈ y_log y →
  ∃ ag k, y_agents y !! b = Some ag ∧ loads_key (a_call ag) = Some k ∧ (b, EvSec l.1 (OJoin k) (SWait l.2)) ∈ y_log y.
Proof.
  intros HR Hr. destruct (returned_done y b HR (ex_intro _ (RetVal v (Some l)) Hr)) as (ag & r & Ha & Hpc & Hr' & h & Hl & Eh).
  rewrite (returned_unique _ _ _ _ HR Hr' Hr) in *. exists ag. inversion Hl; subst; eexists; (split; [done|split; [done|]]); apply hist_in; try done; rewrite Eh;
    unfold queued, asked; simpl; rewrite !elem_of_cons; auto.
Qed.
Lemma drop_life y a : Reach y → (a, EvRet RetDrop) ∈ y_log y → ∃ l, (∃ b, (a, EvGive l b) ∈ y_log y) ∨ (a, EvEnd l) ∈ y_log y.
Proof.
  intros HR Hr. destruct (returned_done y a HR (ex_intro _ RetDrop Hr)) as (ag & r & Ha & Hpc & Hr' & h & Hl & Eh).
  rewrite (returned_unique _ _ _ _ HR Hr' Hr) in *.
  assert (∀ j id h', dropped j id h' → (∀ ev, ev ∈ h' → ev ∈ h) → ∃ l, (∃ b, (a, EvGive l b) ∈ y_log y) ∨ (a, EvEnd l) ∈ y_log y) as H.
  { intros j id h' [b|] Hs; exists (j, id); [left; exists b|right]; (apply hist_in; [done|]); rewrite Eh; apply elem_of_app; left; apply Hs; [left|right; left]. }
  inversion Hl; subst; (eapply H; [done|]); intros ev Hev; apply elem_of_app; by right.
Qed.
(* a call queues up once, or starts a load once *)
Definition is_q (ev : cevent P) : bool := match ev with EvWait _ | EvSec _ (OJoin _) (SNew _) => true | _ => false end.
Definition nq h : nat := length (List.filter is_q h).
Lemma nq_app h1 h2 : nq (h1 ++ h2) = nq h1 + nq h2.
Proof. unfold nq. by rewrite List.filter_app, app_length. Qed.
Lemma nq_all m i : nq (map (all_ev (P:=P) m) i) = 0.
Proof. unfold nq. by induction i. Qed.
Lemma nq_guarded j c k id h : guarded j c k id h → nq h = 1.
Proof. by intros [|]. Qed.
Lemma nq_guardian j c k id h : guardian j c k id h → nq h = 1.
Proof. intros [H|[_ ->]]; [by eapply nq_guarded|done]. Qed.
Lemma nq_dropped j id h : dropped (P:=P) j id h → nq h = 0.
Proof. by intros [|]. Qed.
Lemma nq_life mask n c h r : life mask n c h r → nq h ≤ 1.
Proof.
  intros H. destruct H; try (simpl; lia); rewrite ?nq_app; try match goal with H : guarded _ _ _ _ _ |- _ => rewrite (nq_guarded _ _ _ _ _ H) end;
    try match goal with H : dropped _ _ _ |- _ => rewrite (nq_dropped _ _ _ H) end; try (simpl; lia); try (unfold nq; simpl; lia).
  change (nq (map (all_ev m) (seq 0 n)) ≤ 1). rewrite nq_all. lia.
Qed.
Lemma nq_hpc mask n c x h : hpc mask n c x h → nq h ≤ 1.
Proof.
  intros H. destruct x; simpl in H;
    try (destruct nm; simpl in H); try (destruct sm; simpl in H);
    repeat match goal with
    | H : ∃ _, _ |- _ => destruct H as [? H]
    | H : _ ∧ _ |- _ => destruct H as [? H]
    end; try subst h; rewrite ?nq_app;
    try match goal with H : guarded _ _ _ _ _ |- _ => rewrite (nq_guarded _ _ _ _ _ H) end;
    try match goal with H : guardian _ _ _ _ _ |- _ => rewrite (nq_guardian _ _ _ _ _ H) end; try (unfold nq; simpl; lia).
  - change (nq (map (all_ev m) (seq 0 x)) ≤ 1). rewrite nq_all. lia.
  - change (nq (map (all_ev m) (seq 0 j)) ≤ 1). rewrite nq_all. lia.
  - match goal with H : life _ _ _ _ _ |- _ => apply nq_life in H end. unfold nq at 2; simpl. lia.
Qed.
Lemma nq_one h ev ev' : nq h ≤ 1 → ev ∈ h → ev' ∈ h → is_q ev = true → is_q ev' = true → ev = ev'.
Proof.
  unfold nq. intros Hle H1 H2 Q1 Q2. assert (ev ∈ List.filter is_q h) as F1 by (apply elem_of_list_In, List.filter_In; by rewrite <-elem_of_list_In).
  assert (ev' ∈ List.filter is_q h) as F2 by (apply elem_of_list_In, List.filter_In; by rewrite <-elem_of_list_In).
  destruct (List.filter is_q h) as [|z [|]]; simpl in Hle; [by apply elem_of_nil in F1| |lia].
  apply elem_of_list_singleton in F1, F2. congruence.
Qed.
(* whoever became the guard after queueing was given it *)
Lemma guard_given y b l : Reach y → GInv y → (b, EvGuard l) ∈ y_log y → (b, EvWait l) ∈ y_log y → ∃ a, (a, EvGive l b) ∈ y_log y.
Proof.
  intros HR HG Hg Hw. destruct (guard_trusted _ _ _ HG Hg) as [[k Hk]|[a Ha]]; [|eauto]. exfalso.
  pose proof (hi_log _ (rc_h _ HR) _ _ Hk) as Hlt. apply lookup_lt_is_Some in Hlt as [ag Hag].
  pose proof (nq_hpc _ _ _ _ _ (hi_agent _ (rc_h _ HR) _ _ Hag)) as Hn. apply hist_in in Hw, Hk; try done.
  by pose proof (nq_one _ _ _ Hn Hk Hw eq_refl eq_refl).
Qed.
(* those who read the state of a load never find it over *)
Lemma reader_live y a ag j p : Reach y → y_agents y !! a = Some ag →
  (∃ md, a_pc ag = JPushIn j p md) ∨ a_pc ag = JReIn j p ∨ a_pc ag = FDropIn j p ∨ (∃ sm, a_pc ag = SIn j p sm) ∨ a_pc ag = DIn j p ∨ (∃ rs v wl, a_pc ag = IIn j p rs v wl) →
  at_load y (pl j p) ≠ Terminated.
Proof.
  intros HR Ha Hx Ht. pose proof (ci_load _ _ _ _ _ (rc_c _ HR) (pl j p)) as HL. destruct (l_term _ HL Ht) as (_ & _ & Hn). specialize (Hn a). simpl in Hn.
  assert (∃ r, part_of (a_pc ag) = Some (j, p, r) ∧ r ≠ QNone) as (r & Hp & Hr).
  { destruct Hx as [[md ->]|[->|[->|[[sm ->]|[->|(rs & v & wl & ->)]]]]]; simpl; try (eexists; split; [reflexivity|done]). }
  rewrite (role_of _ _ _ _ _ _ Ha Hp) in Hn. done.
Qed.
End conclast.
