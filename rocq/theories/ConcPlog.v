(* What follows from every event being proper, without looking at the states. *)
From stdpp Require Import prelude list.
From Verif Require Export ConcSpec.

Section plog.
Context {P : Params}.
Notation K := (K P). Notation V := (V P). Notation RS := (RS P).
Implicit Types (k : K) (v : V) (rs : RS) (a b d : nat) (l : loc) (j : nat) (g : list (nat * cevent P)) (ev : cevent P).

Definition has_put g l : Prop := ∃ a v, (a, EvPut l v) ∈ g.
Lemma proper_init g z : proper_log (P:=P) (g ++ [z]) → proper_log g ∧ proper g z.1 z.2.
Proof.
  intros H. split.
  - intros g1 a ev g2 ->. eapply H. by rewrite <-app_assoc.
  - eapply (H g _ _ []). by destruct z.
Qed.
Lemma proper_prefix g1 g2 : proper_log (P:=P) (g1 ++ g2) → proper_log g1.
Proof. intros H h1 a ev h2 ->. eapply H. by rewrite <-app_assoc. Qed.
Lemma snoc_in g (z w : nat * cevent P) : w ∈ g ++ [z] ↔ w ∈ g ∨ w = z.
Proof. by rewrite elem_of_app, elem_of_list_singleton. Qed.
Lemma trusted_snoc g a ev l b : trusted (g ++ [(a, ev)]) l b ↔
  trusted g l b ∨ (∃ k, ev = EvSec l.1 (OJoin k) (SNew l.2) ∧ a = b) ∨ ev = EvGive l b.
Proof.
  unfold trusted. setoid_rewrite snoc_in. split.
  - intros [[k [H|H]]|[d [H|H]]]; [left; left; by exists k| |left; right; by exists d|]; injection H as -> <-; right; [left; by exists k|by right].
  - intros [[[k H]|[d H]]|[[k [-> ->]]| ->]]; [left|right|left|right]; eexists; by (left + right).
Qed.
Lemma settled_snoc g a ev l b : settled (g ++ [(a, ev)]) l b ↔
  settled g l b ∨ (a = b ∧ ((∃ v, ev = EvPut l v) ∨ (∃ d, ev = EvGive l d) ∨ ev = EvEnd l)).
Proof.
  unfold settled. setoid_rewrite snoc_in. split.
  - intros [[v [H|H]]|[[d [H|H]]|[H|H]]]; try (injection H as -> <-); eauto 8.
  - intros [[[v H]|[[d H]|H]]|[-> [[v ->]|[[d ->]| ->]]]]; eauto 8.
Qed.
Lemma plog_settled g : proper_log (P:=P) g → ∀ l a, settled g l a → trusted g l a.
Proof.
  induction g as [|[d ev] g IH] using rev_ind; intros Hp l a; [intros [[? ?%elem_of_nil]|[[? ?%elem_of_nil]|?%elem_of_nil]]; done|].
  apply proper_init in Hp as [Hp He]. simpl in He. rewrite settled_snoc, trusted_snoc. intros [H|[-> H]]; [left; by apply IH|].
  left. destruct H as [[v ->]|[[b ->]| ->]]; apply He.
Qed.
(* at most one party in charge; nobody after the load is over *)
Lemma plog_charge g : proper_log (P:=P) g → ∀ l,
  (∀ a b, in_charge g l a → in_charge g l b → a = b) ∧ (has_put g l ∨ ended g l → ∀ a, ¬ in_charge g l a).
Proof.
  induction g as [|[d ev] g IH] using rev_ind; intros Hp l.
  { split; [intros a b [[[? ?%elem_of_nil]|[? ?%elem_of_nil]] _]; done|intros [(? & ? & ?%elem_of_nil)|[? ?%elem_of_nil]]; done]. }
  apply proper_init in Hp as [Hp He]. simpl in He. destruct (IH Hp l) as [I1 I2].
  assert (∀ a, in_charge (g ++ [(d, ev)]) l a → in_charge g l a ∨ (∃ k, ev = EvSec l.1 (OJoin k) (SNew l.2) ∧ d = a) ∨ ev = EvGive l a) as Hch.
  { intros a [H1 H2]. rewrite trusted_snoc in H1. rewrite settled_snoc in H2. destruct H1 as [H1|H1]; [left|by right]. split; [done|tauto]. }
  assert (∀ a, in_charge (g ++ [(d, ev)]) l a → d = a → (∀ v, ev ≠ EvPut l v) ∧ (∀ b, ev ≠ EvGive l b) ∧ ev ≠ EvEnd l) as Hset.
  { intros a [H1 H2] ->. rewrite settled_snoc in H2. split_and!; [intros v ->|intros b ->|intros ->]; apply H2; right; eauto. }
  assert ((∃ k, ev = EvSec l.1 (OJoin k) (SNew l.2)) → ∀ b ev', (b, ev') ∈ g → about ev' ≠ Some l) as Hnew.
  { intros [k ->]. destruct l as [j id]. exact He. }
  assert ((∃ k, ev = EvSec l.1 (OJoin k) (SNew l.2)) → ∀ b, ¬ trusted g l b) as Hnt.
  { intros H b [[k Hb]|[c Hb]]; apply (Hnew H) in Hb; simpl in Hb; [by destruct l|done]. }
  split.
  - intros a b Ha Hb. pose proof (Hch a Ha) as Ca. pose proof (Hch b Hb) as Cb.
    destruct Ca as [Ca|[(k & Ea & <-)|Ea]], Cb as [Cb|[(k' & Eb & <-)|Eb]]; try done; try congruence.
    + by apply I1.
    + destruct (Hnt (ex_intro _ _ Eb) a). apply Ca.
    + subst ev. destruct He as (He & _ & _). rewrite (I1 _ _ Ca He) in Ha. destruct (Hset d Ha eq_refl) as (_ & H & _). by destruct (H b).
    + destruct (Hnt (ex_intro _ _ Ea) b). apply Cb.
    + subst ev. destruct He as (He & _ & _). rewrite (I1 _ _ Cb He) in Hb. destruct (Hset d Hb eq_refl) as (_ & H & _). by destruct (H a).
  - intros Hover a Ha. assert (has_put g l ∨ ended g l ∨ (∃ v, ev = EvPut l v) ∨ ev = EvEnd l) as Hcase.
    { destruct Hover as [(b & v & Hb)|[b Hb]]; apply snoc_in in Hb as [Hb|Hb].
      - left. by exists b, v. - injection Hb as _ <-. eauto. - right; left. by exists b. - injection Hb as _ <-. eauto. }
    pose proof (Hch a Ha) as Ca.
    assert (has_put g l ∨ ended g l → False) as Hold.
    { intros Ho. destruct Ca as [Ca|[(k & E & _)|E]].
      - by eapply I2.
      - pose proof (Hnew (ex_intro _ _ E)) as Hn. destruct Ho as [(b & v & Hb)|[b Hb]]; by apply Hn in Hb.
      - subst ev. destruct He as (He & _ & _). by eapply I2. }
    destruct Hcase as [H|[H|H]]; [by auto|by auto|]. assert (in_charge g l d) as Hd by (destruct H as [[v ->]| ->]; apply He).
    destruct Ca as [Ca|[(k & E & _)|E]]; [|destruct H as [[v ->]| ->]; done..].
    rewrite (I1 _ _ Ca Hd) in Ha. destruct (Hset d Ha eq_refl) as (H1 & _ & H2). destruct H as [[v H]|H]; [by eapply H1|done].
Qed.
Lemma plog_put_end g l : proper_log (P:=P) g → has_put g l → ended g l → False.
Proof.
  induction g as [|[d ev] g IH] using rev_ind; intros Hp; [by intros (? & ? & ?%elem_of_nil)|].
  apply proper_init in Hp as [Hp He]. simpl in He. intros (a & v & H1) (b & H2).
  apply snoc_in in H1 as [H1|H1]; apply snoc_in in H2 as [H2|H2].
  - apply IH; [done|by exists a, v|by exists b].
  - injection H2 as <- <-. destruct He as [He _]. destruct (plog_charge g Hp l) as [_ H]. eapply H, He. left. by exists a, v.
  - injection H1 as <- <-. destruct He as [He _]. destruct (plog_charge g Hp l) as [_ H]. eapply H, He. right. by exists b.
  - congruence.
Qed.
Lemma plog_put_one g l a b v v' : proper_log (P:=P) g → (a, EvPut l v) ∈ g → (b, EvPut l v') ∈ g → a = b ∧ v = v'.
Proof.
  induction g as [|[d ev] g IH] using rev_ind; intros Hp H1 H2; [by apply elem_of_nil in H1|].
  apply proper_init in Hp as [Hp Hl]. simpl in Hl. apply snoc_in in H1 as [H1|H1]; apply snoc_in in H2 as [H2|H2]; [by apply IH| | |].
  - injection H2 as <- <-. destruct Hl as [_ Hl]. by apply Hl in H1.
  - injection H1 as <- <-. destruct Hl as [_ Hl]. by apply Hl in H2.
  - rewrite <-H1 in H2. by injection H2.
Qed.
(* nothing happens to a load that was given up *)
Lemma plog_over g g1 a l g2 b ev : proper_log (P:=P) g → g = g1 ++ (a, EvEnd l) :: g2 → (b, ev) ∈ g2 → about ev ≠ Some l.
Proof.
  intros Hp -> Hin Hab. apply elem_of_list_split in Hin as (g3 & g4 & ->). rewrite app_comm_cons, app_assoc in Hp.
  remember (g1 ++ (a, EvEnd l) :: g3) as g eqn:Eg.
  assert (ended g l) as Hend by (exists a; subst g; apply elem_of_app; right; left).
  pose proof (Hp g b ev g4 eq_refl) as He. apply proper_prefix in Hp. destruct (plog_charge g Hp l) as [_ Hno].
  specialize (Hno (or_intror Hend)).
  destruct ev as [c|j o r|l'|l' v|l' d|l'|d|l'|r]; try done; simpl in Hab.
  - destruct o as [m|k|rs id v wl|id]; try done.
    + destruct r as [o|v0|id0|id0|v0|]; try done; injection Hab as <-; simpl in He.
      * destruct He as [_ He]. done.
      * destruct Hend as [a' Ha']. by apply He in Ha'.
    + injection Hab as <-. destruct He as [He _]. eapply (plog_put_end g); [done| |done]. by exists b, v.
    + injection Hab as <-. destruct He as [He _]. by eapply Hno.
  - injection Hab as ->. by destruct He.
  - injection Hab as ->. destruct He as [He _]. by eapply Hno.
  - injection Hab as ->. destruct He as [He _]. by eapply Hno.
  - injection Hab as ->. destruct He as [He _]. by eapply Hno.
  - injection Hab as ->. by eapply Hno.
  - destruct r as [o|v [l'|]| | |v|]; try done. injection Hab as ->. destruct He as (_ & _ & _ & [d Hd] & _).
    eapply (plog_put_end g); [done| |done]. by exists d, v.
Qed.
(* the guard is given to an agent at most once *)
Lemma plog_give_one g l a b d g1 g2 : proper_log (P:=P) g → g = g1 ++ (a, EvGive l b) :: g2 → (d, EvGive l b) ∉ g1 ∧ (d, EvGive l b) ∉ g2.
Proof.
  intros Hp ->. split; intros H.
  - destruct (Hp _ _ _ _ eq_refl) as (_ & _ & Hn). apply Hn. right. by exists d.
  - apply elem_of_list_split in H as (g3 & g4 & ->). rewrite app_comm_cons, app_assoc in Hp.
    destruct (Hp _ _ _ _ eq_refl) as (_ & _ & Hn). apply Hn. right. exists a. apply elem_of_app. right. left.
Qed.
End plog.
