(* The protocol around one pending load, seen from outside: which agents take part in it and how,
   and what each step of one of them does. The invariant says who is responsible for the load. *)
From stdpp Require Import prelude list functions.
From Verif Require Import Conc.

Section proto.
Context {P : Params}.
Notation V := (V P).
Implicit Types (a b : nat) (v : V) (w : waiter) (ws : list waiter) (t : bool).

(* The part an agent has in the load: none; about to queue up; queued up; woken up; guard; handing
   the guard to w; notifying ws that v is there; about to store v in the cache. *)
Inductive lrole := QNone | QPush | QWait t | QWoke | QGuard | QHand w | QNote v ws | QFill v.

Record lv := LV {
  v_role : nat → lrole; v_flag : nat → bool;
  v_load : loading P; v_wait : list waiter;
  v_map : Prop;                (* the load is in the cache *)
  v_on : bool;                 (* the load was started *)
  v_ent : nat → Prop;          (* agents that were made responsible for it *)
  v_dis : nat → Prop;          (* agents that provided the value, passed the guard on or gave up *)
  v_put : V → Prop }.          (* values provided to it *)
Implicit Types (x : lv).

Definition guardish x a : Prop := match v_role x a with QGuard | QHand _ => True | _ => False end.
Definition owns x a : Prop :=
  match v_role x a with QGuard | QHand _ | QWoke => True | QWait _ => v_flag x a = true | _ => False end.
(* responsible, and not passing it on already *)
Definition keeps x a : Prop :=
  match v_role x a with QGuard | QWoke => True | QWait _ => v_flag x a = true | _ => False end.
Definition tail x a v : Prop := match v_role x a with QNote v' _ | QFill v' => v' = v | _ => False end.
Definition pend x a : list waiter := match v_role x a with QHand w => [w] | QNote _ ws => ws | _ => [] end.

Record LInv x : Prop := {
  l_off : v_on x = false → v_load x = Loading ∧ v_wait x = [] ∧ ¬ v_map x ∧ ∀ a, v_role x a = QNone;
  l_owner : v_load x = Loading → v_on x = true → ∃ a, owns x a;
  l_one : v_load x = Loading → ∀ a b, owns x a → owns x b → a = b;
  l_notail : v_load x = Loading → ∀ a v, ¬ tail x a v;
  l_ins : ∀ v, v_load x = Inserted v → v_wait x = [] ∧ v_put x v ∧ (v_map x → ∃ a, tail x a v);
  l_insg : ∀ v, v_load x = Inserted v → ∀ a, ¬ guardish x a;
  l_tail : ∀ v, v_load x = Inserted v → ∀ a v', tail x a v' → v' = v;
  l_tail1 : ∀ a b v v', tail x a v → tail x b v' → a = b;
  l_term : v_load x = Terminated → v_wait x = [] ∧ ¬ v_map x ∧ ∀ a, v_role x a = QNone;
  l_wait : ∀ w, w ∈ v_wait x → v_role x w.1 = QWait w.2 ∧ v_flag x w.1 = false;
  l_nodup : NoDup (v_wait x);
  l_pend : ∀ a w, w ∈ pend x a → v_role x w.1 = QWait w.2 ∧ v_flag x w.1 = false;
  l_pnodup : ∀ a, NoDup (pend x a);
  l_disj : ∀ a w, w ∈ pend x a → w ∉ v_wait x;
  l_reg : ∀ b t, v_role x b = QWait t → v_flag x b = false → (b, t) ∈ v_wait x ∨ ∃ a, (b, t) ∈ pend x a;
  l_push : ∀ a, v_role x a = QPush → v_map x;
  l_ent : ∀ b, v_ent x b → v_dis x b ∨ (v_load x = Loading ∧ (keeps x b ∨ ∃ a t, v_role x a = QHand (b, t)));
  l_ownent : v_load x = Loading → ∀ b, owns x b → v_ent x b;
  l_hand : ∀ a w, v_role x a = QHand w → v_ent x w.1;
  l_put : ∀ v, v_put x v → v_load x = Inserted v;
  l_started : ∀ b, v_ent x b → v_on x = true;
}.
Definition setr x a (r : lrole) : lv :=
  LV (<[a := r]> (v_role x)) (v_flag x) (v_load x) (v_wait x) (v_map x) (v_on x) (v_ent x) (v_dis x) (v_put x).

(* only what is seen of the load matters *)
Lemma linv_ext x x' : LInv x →
  (∀ a, v_role x' a = v_role x a) → (∀ a t, v_role x a = QWait t → v_flag x' a = v_flag x a) →
  v_load x' = v_load x → v_wait x' = v_wait x → (v_map x' ↔ v_map x) → v_on x' = v_on x →
  (∀ a, v_ent x' a ↔ v_ent x a) → (∀ a, v_dis x a → v_dis x' a) → (∀ v, v_put x' v ↔ v_put x v) → LInv x'.
Proof.
  intros [] Hr Hf Hl Hw Hm Ho He Hd Hp.
  assert (∀ a, owns x' a ↔ owns x a) as Hown.
  { intros a. unfold owns. rewrite Hr. destruct (v_role x a) eqn:E; try done. by rewrite (Hf a t). }
  assert (∀ a, keeps x' a ↔ keeps x a) as Hkeep.
  { intros a. unfold keeps. rewrite Hr. destruct (v_role x a) eqn:E; try done. by rewrite (Hf a t). }
  assert (∀ a, guardish x' a ↔ guardish x a) as Hg by (intros a; unfold guardish; by rewrite Hr).
  assert (∀ a v, tail x' a v ↔ tail x a v) as Ht by (intros a v; unfold tail; by rewrite Hr).
  assert (∀ a, pend x' a = pend x a) as Hpd by (intros a; unfold pend; by rewrite Hr).
  assert (∀ b t, v_role x b = QWait t → v_flag x' b = v_flag x b) as Hfw by done.
  split.
  - intros Hn. rewrite Hl, Hw. destruct l_off0 as (? & ? & ? & H); [by rewrite <-Ho|]. split_and!; try done; [by rewrite Hm|intros a; by rewrite Hr].
  - rewrite Hl. intros HL HO. destruct l_owner0 as [a Ha]; [done|by rewrite <-Ho|]. exists a. by apply Hown.
  - rewrite Hl. intros HL a b Ha Hb. apply l_one0; [done|by apply Hown|by apply Hown].
  - rewrite Hl. intros HL a v Ha. eapply l_notail0; [done|by apply Ht].
  - rewrite Hl, Hw. intros v HL. destruct (l_ins0 v HL) as (? & ? & H). split_and!; [done|by apply Hp|].
    intros M. destruct H as [a Ha]; [by apply Hm|]. exists a. by apply Ht.
  - rewrite Hl. intros v HL a Ha. eapply l_insg0; [done|by apply Hg].
  - rewrite Hl. intros v HL a v' Ha. eapply l_tail0; [done|by apply Ht].
  - intros a b v v' Ha Hb. eapply l_tail2; by apply Ht.
  - rewrite Hl, Hw. intros HL. destruct l_term0 as (? & ? & H); [done|]. split_and!; [done|by rewrite Hm|intros a; by rewrite Hr].
  - rewrite Hw. intros w Hi. destruct (l_wait0 w Hi). by rewrite Hr, (Hfw w.1 w.2).
  - by rewrite Hw.
  - intros a w. rewrite Hpd. intros Hi. destruct (l_pend0 a w Hi). by rewrite Hr, (Hfw w.1 w.2).
  - intros a. by rewrite Hpd.
  - intros a w. rewrite Hpd, Hw. apply l_disj0.
  - intros b t. rewrite Hr, Hw. intros H1. rewrite (Hfw b t H1). intros H2. destruct (l_reg0 b t H1 H2) as [?|[a Ha]]; [by left|right].
    exists a. by rewrite Hpd.
  - intros a. rewrite Hr. intros H. apply Hm. by eapply l_push0.
  - intros b Hb. rewrite Hl. apply He, l_ent0 in Hb as [H|[H1 H2]]; [left; by apply Hd|right]. split; [done|].
    destruct H2 as [H2|(a & t & H2)]; [left; by apply Hkeep|right]. exists a, t. by rewrite Hr.
  - rewrite Hl. intros HL b Hb. apply He, l_ownent0; [done|by apply Hown].
  - intros a w. rewrite Hr. intros H. apply He. by eapply l_hand0.
  - intros v H. rewrite Hl. by apply l_put0, Hp.
  - intros b H. rewrite Ho. eapply l_started0. by apply He.
Qed.

(* ---- the steps of the protocol ---- *)
Lemma fn_ins {A} (f : nat → A) a b (z : A) : <[a := z]> f b = if decide (b = a) then z else f b.
Proof. case_decide; [subst; apply fn_lookup_insert|by apply fn_lookup_insert_ne]. Qed.
Local Ltac sim := unfold setr, owns, keeps, guardish, tail, pend in *; cbn [v_role v_flag v_load v_wait v_map v_on v_ent v_dis v_put] in *.
Local Ltac cases := repeat match goal with
  | H : context [<[_ := _]> _ _] |- _ => rewrite fn_ins in H
  | |- context [<[_ := _]> _ _] => rewrite fn_ins
  end; repeat case_decide; subst.

(* the load is started *)
Lemma m_alloc x a : LInv x → v_on x = false →
  LInv (LV (<[a := QGuard]> (v_role x)) (v_flag x) (v_load x) (v_wait x) True true (λ b, b = a ∨ v_ent x b) (v_dis x) (v_put x)).
Proof.
  intros HI Hon. destruct (l_off _ HI Hon) as (HL & HW & HM & HR).
  assert (∀ b, ¬ v_ent x b) as He by (intros b Hb; apply (l_started _ HI) in Hb; congruence).
  assert (∀ v, ¬ v_put x v) as Hp by (intros v Hv; apply (l_put _ HI) in Hv; congruence).
  split; sim; rewrite ?HL, ?HW; try done.
  - intros _ _. exists a. by rewrite fn_lookup_insert.
  - intros _ b c. cases; rewrite ?HR; done.
  - intros _ b v. cases; rewrite ?HR; tauto.
  - intros b c v v'. cases; rewrite ?HR; done.
  - intros w H. by apply elem_of_nil in H.
  - constructor.
  - intros b w. cases; rewrite ?HR; by intros ?%elem_of_nil.
  - intros b. cases; rewrite ?HR; constructor.
  - intros b w. cases; rewrite ?HR; by intros ?%elem_of_nil.
  - intros b t. cases; rewrite ?HR; done.
  - intros b [->|Hb]; [|by destruct (He b)]. right. split; [done|]. left. by rewrite fn_lookup_insert.
  - intros _ b. cases; [by left|by rewrite HR].
  - intros b w. cases; rewrite ?HR; done.
  - intros v Hv. by destruct (Hp v).
Qed.

Lemma role_on x a : LInv x → v_role x a ≠ QNone → v_on x = true.
Proof. intros HI Hr. destruct (v_on x) eqn:E; [done|]. destruct (l_off _ HI E) as (_ & _ & _ & H). by destruct Hr. Qed.
(* only the part of one agent changes *)
Definition own_r (r : lrole) (f : bool) : Prop :=
  match r with QGuard | QHand _ | QWoke => True | QWait _ => f = true | _ => False end.
Definition pend_r (r : lrole) : list waiter := match r with QHand w => [w] | QNote _ ws => ws | _ => [] end.
Definition tail_r (r : lrole) v : Prop := match r with QNote v' _ | QFill v' => v' = v | _ => False end.
Lemma m_role x a r : LInv x → v_on x = true → v_load x ≠ Terminated →
  pend_r r = [] → pend_r (v_role x a) = [] →
  (v_load x = Loading → own_r r (v_flag x a) ↔ own_r (v_role x a) (v_flag x a)) →
  (∀ v, tail_r r v ↔ tail_r (v_role x a) v) →
  (∀ v, v_load x = Inserted v → r ≠ QGuard) → (r = QPush → v_map x) →
  (∀ t, v_role x a = QWait t → v_flag x a = true) → (∀ t, r ≠ QWait t) → LInv (setr x a r).
Proof.
  intros HI Hon HT Hp1 Hp2 Hown Htail Hg Hm Hq1 Hq2.
  assert (∀ w, r ≠ QHand w) as Hh1 by (intros w ->; done).
  assert (∀ w, v_role x a ≠ QHand w) as Hh2 by (intros w E; by rewrite E in Hp2).
  assert (v_load x = Loading → ∀ b, owns (setr x a r) b ↔ owns x b) as Ho.
  { intros HL b. unfold owns, setr; simpl. rewrite fn_ins. case_decide; [subst|done]. by apply (Hown HL). }
  assert (v_load x = Loading → ∀ b, keeps x b → keeps (setr x a r) b) as Hk.
  { intros HL b. unfold keeps, setr; simpl. rewrite fn_ins. case_decide; [subst|done]. intros H. specialize (Hown HL).
    destruct r; try done; simpl in *; try tauto; destruct (v_role x a); try done; tauto. }
  assert (∀ b v, tail (setr x a r) b v ↔ tail x b v) as Ht.
  { intros b v. unfold tail, setr; simpl. rewrite fn_ins. case_decide; [subst|done]. apply Htail. }
  assert (∀ b, pend (setr x a r) b = pend x b) as Hpd.
  { intros b. unfold pend, setr; simpl. rewrite fn_ins. case_decide; [subst|done]. fold (pend_r r). fold (pend_r (v_role x a)). congruence. }
  assert (∀ b t, v_role x b = QWait t → v_flag x b = false → b ≠ a) as Hne.
  { intros b t H1 H2 ->. rewrite (Hq1 t H1) in H2. done. }
  destruct HI. split; try done.
  - intros H1. simpl in H1. congruence.
  - intros H1 _. destruct (l_owner0 H1 Hon) as [b Hb]. exists b. by apply Ho.
  - intros H1 b c Hb Hc. apply l_one0; [done|by apply Ho|by apply Ho].
  - intros H1 b v Hb. eapply l_notail0; [done|by apply Ht].
  - intros v H1. destruct (l_ins0 v H1) as (A & B & C). split_and!; try done. intros M. destruct (C M) as [b Hb]. exists b. by apply Ht.
  - intros v H1 b. unfold guardish, setr; simpl. rewrite fn_ins. case_decide; [subst|by eapply l_insg0].
    specialize (Hg v H1). destruct r; try done; try tauto.
  - intros v H1 b v' Hb. eapply l_tail0; [done|by apply Ht].
  - intros b c v v' Hb Hc. eapply l_tail2; by apply Ht.
  - intros w Hw. destruct (l_wait0 w Hw) as [A B]. simpl. rewrite fn_ins, decide_False; [done|]. by eapply Hne.
  - intros b w. rewrite Hpd. intros Hw. destruct (l_pend0 b w Hw) as [A B]. simpl. rewrite fn_ins, decide_False; [done|]. by eapply Hne.
  - intros b. by rewrite Hpd.
  - intros b w. rewrite Hpd. apply l_disj0.
  - intros b t. simpl. rewrite fn_ins. case_decide; [intros E; by destruct (Hq2 t)|]. intros A B.
    destruct (l_reg0 b t A B) as [?|[c Hc]]; [by left|]. right. exists c. by rewrite Hpd.
  - intros b. simpl. rewrite fn_ins. case_decide; [done|]. apply l_push0.
  - intros b Hb. destruct (l_ent0 b Hb) as [?|[A [B|(c & t & B)]]]; [by left| |]; right; (split; [done|]).
    + left. by apply Hk.
    + right. exists c, t. simpl. rewrite fn_ins. case_decide; [|done]. subst. by destruct (Hh2 (b, t)).
  - intros H1 b Hb. apply l_ownent0; [done|by apply Ho].
  - intros b w. simpl. rewrite fn_ins. case_decide; [intros E; by destruct (Hh1 w)|]. apply l_hand0.
Qed.

(* an agent queues up *)
Lemma m_push x a t : LInv x → v_role x a = QPush → v_load x = Loading →
  LInv (LV (<[a := QWait t]> (v_role x)) (<[a := false]> (v_flag x)) (v_load x) (v_wait x ++ [(a, t)]) (v_map x) (v_on x) (v_ent x) (v_dis x) (v_put x)).
Proof.
  intros HI Hr HL. pose proof (role_on x a HI) as Hon. rewrite Hr in Hon. specialize (Hon ltac:(done)).
  destruct HI. split; sim; try done.
  - congruence.
  - intros _ _. destruct (l_owner0 HL Hon) as [b Hb]. exists b. cases; [by rewrite Hr in Hb|done].
  - intros _ b c. cases; try done. by apply l_one0.
  - intros _ b v. cases; [tauto|]. by apply l_notail0.
  - congruence.
  - congruence.
  - congruence.
  - intros b c v v'. cases; try done. by apply l_tail2.
  - congruence.
  - intros w [Hw|Hw%elem_of_list_singleton]%elem_of_app.
    + destruct (l_wait0 w Hw). cases; [congruence|done].
    + subst w. simpl. cases; done.
  - apply NoDup_app. split_and!; [done| |apply NoDup_singleton]. intros w Hw ->%elem_of_list_singleton.
    destruct (l_wait0 _ Hw). simpl in *. congruence.
  - intros b w. cases; try (by intros ?%elem_of_nil); intros Hw; destruct (l_pend0 b w Hw); [congruence|done].
  - intros b. cases; [constructor|done].
  - intros b w. cases; [by intros ?%elem_of_nil|]. intros Hw [?|Hw2%elem_of_list_singleton]%elem_of_app.
    + by eapply l_disj0.
    + subst. destruct (l_pend0 _ _ Hw). simpl in *. congruence.
  - intros b t'. cases; [|]; intros A B.
    + injection A as <-. left. apply elem_of_app. right. by apply elem_of_list_singleton.
    + destruct (l_reg0 b t' A B) as [?|[c Hc]]; [left; apply elem_of_app; by left|]. right. exists c. cases; [by rewrite Hr in Hc|done].
  - intros b. cases; [done|]. by apply l_push0.
  - intros b Hb. destruct (l_ent0 b Hb) as [?|[A [B|(c & t' & B)]]]; [by left| |]; right; (split; [done|]).
    + left. cases; [by rewrite Hr in B|done].
    + right. exists c, t'. cases; [congruence|done].
  - intros _ b. cases; [done|]. by apply l_ownent0.
  - intros b w. cases; [done|]. apply l_hand0.
Qed.

(* an agent that was not notified gives up waiting *)
Lemma m_listed x a t : LInv x → v_role x a = QWait t → v_flag x a = false → (∀ b, pend x b = []) → (a, t) ∈ v_wait x.
Proof. intros HI H1 H2 H3. destruct (l_reg _ HI a t H1 H2) as [?|[b Hb]]; [done|]. rewrite H3 in Hb. by apply elem_of_nil in Hb. Qed.
Lemma m_leave x a t ws : LInv x → v_role x a = QWait t → v_flag x a = false → (∀ b, pend x b = []) →
  (a, t) :: ws ≡ₚ v_wait x →
  LInv (LV (<[a := QNone]> (v_role x)) (v_flag x) (v_load x) ws (v_map x) (v_on x) (v_ent x) (v_dis x) (v_put x)).
Proof.
  intros HI Hr Hf Hpd Hws. pose proof (role_on x a HI) as Hon. rewrite Hr in Hon. specialize (Hon ltac:(done)).
  assert (∀ w, w ∈ ws → w ∈ v_wait x) as Hin by (intros w Hw; rewrite <-Hws; by right).
  pose proof (l_nodup _ HI) as Hnd. rewrite <-Hws in Hnd. apply NoDup_cons in Hnd as [Hni Hnd].
  assert (v_load x = Loading) as HL.
  { destruct (v_load x) as [|v|] eqn:E; [done| |].
    - destruct (l_ins _ HI v E) as (E2 & _). rewrite E2 in Hws. by apply Permutation_nil_r in Hws.
    - destruct (l_term _ HI E) as (_ & _ & E2). rewrite E2 in Hr. done. }
  destruct HI. split; sim; try done.
  - congruence.
  - intros _ _. destruct (l_owner0 HL Hon) as [b Hb]. exists b. cases; [rewrite Hr in Hb; congruence|done].
  - intros _ b c. cases; try done. by apply l_one0.
  - intros _ b v. cases; [tauto|]. by apply l_notail0.
  - congruence.
  - congruence.
  - congruence.
  - intros b c v v'. cases; try done. by apply l_tail2.
  - congruence.
  - intros w Hw. destruct (l_wait0 w (Hin _ Hw)). cases; [|done]. destruct w as [w1 w2]; simpl in *. assert (w2 = t) by congruence. by subst.
  - intros b w. rewrite fn_ins. case_decide; [by intros ?%elem_of_nil|]. specialize (Hpd b). rewrite Hpd. by intros ?%elem_of_nil.
  - intros b. cases; [constructor|]. specialize (Hpd b). rewrite Hpd. constructor.
  - intros b w. cases; [by intros ?%elem_of_nil|]. specialize (Hpd b). rewrite Hpd. by intros ?%elem_of_nil.
  - intros b t'. cases; [done|]. intros A B. destruct (l_reg0 b t' A B) as [Hi|[c Hc]].
    + rewrite <-Hws in Hi. apply elem_of_cons in Hi as [[=]|Hi]; [done|by left].
    + right. exists c. rewrite (Hpd c) in Hc. by apply elem_of_nil in Hc.
  - intros b. cases; [done|]. by apply l_push0.
  - intros b Hb. destruct (l_ent0 b Hb) as [?|[A [B|(c & t' & B)]]]; [by left| |]; right; (split; [done|]).
    + left. cases; [rewrite Hr in B; congruence|done].
    + right. exists c, t'. cases; [congruence|done].
  - intros _ b. cases; [done|]. by apply l_ownent0.
  - intros b w. cases; [done|]. apply l_hand0.
Qed.

(* the guard provides the value *)
Lemma guard_loading x a : LInv x → v_role x a = QGuard → v_load x = Loading.
Proof.
  intros HI Hr. destruct (v_load x) as [|v|] eqn:E; [done| |].
  - destruct (l_insg _ HI v E a). unfold guardish. by rewrite Hr.
  - destruct (l_term _ HI E) as (_ & _ & E2). rewrite E2 in Hr. done.
Qed.
Lemma guard_alone x a b : LInv x → v_role x a = QGuard → owns x b → b = a.
Proof. intros HI Hr Hb. apply (l_one _ HI); [by eapply guard_loading|done|]. unfold owns. by rewrite Hr. Qed.
Lemma m_put x a v : LInv x → v_role x a = QGuard →
  LInv (LV (<[a := QNote v (v_wait x)]> (v_role x)) (v_flag x) (Inserted v) [] (v_map x) (v_on x) (v_ent x)
          (λ b, b = a ∨ v_dis x b) (λ v', v' = v ∨ v_put x v')).
Proof.
  intros HI Hr. pose proof (role_on x a HI) as Hon. rewrite Hr in Hon. specialize (Hon ltac:(done)).
  pose proof (guard_loading _ _ HI Hr) as HL.
  assert (∀ b w, v_role x b = QHand w → False) as Hnh.
  { intros b w Hb. assert (b = a) as ->; [|congruence]. eapply guard_alone; [done..|]. unfold owns. by rewrite Hb. }
  assert (∀ b, b ≠ a → pend x b = []) as Hpd.
  { intros b Hb. unfold pend. destruct (v_role x b) eqn:E; try done; [by destruct (Hnh b w)|].
    destruct (l_notail _ HI HL b v0). unfold tail. by rewrite E. }
  pose proof (guard_alone x a) as Hal. specialize (λ b, Hal b HI Hr).
  destruct HI. split; sim; try done.
  - congruence.
  - intros v' [= <-]. split_and!; [done|by left|]. intros _. exists a. by rewrite fn_lookup_insert.
  - intros v' _ b. cases; [tauto|]. destruct (v_role x b) eqn:E; try tauto.
    + intros _. specialize (Hal b). rewrite E in Hal. by apply H, Hal.
    + by destruct (Hnh b w).
  - intros v' [= <-] b v2. cases; [done|]. intros Hb. by destruct (l_notail0 HL b v2).
  - intros b c v1 v2. cases; try done.
    + intros _ Hb. by destruct (l_notail0 HL c v2).
    + intros Hb. by destruct (l_notail0 HL b v1).
    + apply l_tail2.
  - intros w ?%elem_of_nil. done.
  - constructor.
  - intros b w. cases; intros Hw.
    + destruct (l_wait0 w Hw). congruence.
    + destruct (l_wait0 w Hw). done.
    + rewrite (Hpd b) in Hw by done. by apply elem_of_nil in Hw.
    + rewrite (Hpd b) in Hw by done. by apply elem_of_nil in Hw.
  - intros b. cases; [done|]. rewrite (Hpd b) by done. constructor.
  - intros b w. intros _ ?%elem_of_nil. done.
  - intros b t. cases; [done|]. intros A B. right. destruct (l_reg0 b t A B) as [Hi|[c Hc]].
    + exists a. by rewrite fn_lookup_insert.
    + destruct (decide (c = a)) as [->|Hne]; [rewrite Hr in Hc; by apply elem_of_nil in Hc|]. rewrite (Hpd c) in Hc by done. by apply elem_of_nil in Hc.
  - intros b. cases; [done|]. apply l_push0.
  - intros b Hb. left. destruct (l_ent0 b Hb) as [?|[A [B|(c & t' & B)]]]; [by right| |].
    + left. apply Hal. by destruct (v_role x b).
    + by destruct (Hnh c (b, t')).
  - intros b w. cases; [done|]. apply l_hand0.
  - intros v' [->|Hv]; [done|]. apply l_put0 in Hv. congruence.
Qed.

(* a waiter is notified that the value is there *)
Lemma m_note x a v b t ws : LInv x → v_role x a = QNote v ((b, t) :: ws) →
  LInv (LV (<[a := QNote v ws]> (v_role x)) (<[b := true]> (v_flag x)) (v_load x) (v_wait x) (v_map x) (v_on x) (v_ent x) (v_dis x) (v_put x)).
Proof.
  intros HI Hr. pose proof (role_on x a HI) as Hon. rewrite Hr in Hon. specialize (Hon ltac:(done)).
  destruct (l_pend _ HI a (b, t)) as [Hb Hbf]; [unfold pend; rewrite Hr; by left|]. simpl in *.
  assert (v_load x = Inserted v) as HL.
  { destruct (v_load x) as [|v'|] eqn:E.
    - destruct (l_notail _ HI E a v). unfold tail. by rewrite Hr.
    - rewrite (l_tail _ HI v' E a v); [done|]. unfold tail. by rewrite Hr.
    - destruct (l_term _ HI E) as (_ & _ & E2). rewrite E2 in Hr. done. }
  destruct (l_ins _ HI v HL) as (HW & Hput & Hmp).
  assert (b ≠ a) as Hba by congruence.
  assert (∀ c, c ≠ a → pend x c = []) as Hpd.
  { intros c Hc. unfold pend. destruct (v_role x c) eqn:E; try done.
    - destruct (l_insg _ HI v HL c). unfold guardish. by rewrite E.
    - destruct Hc. apply (l_tail1 _ HI c a v0 v); unfold tail; [by rewrite E|by rewrite Hr]. }
  pose proof (l_pnodup _ HI a) as Hnd. unfold pend in Hnd. rewrite Hr in Hnd. apply NoDup_cons in Hnd as [Hni Hnd].
  destruct HI. split; sim; try done.
  - congruence.
  - congruence.
  - congruence.
  - congruence.
  - intros v' HL'. split_and!; [done|congruence|]. intros M. exists a. rewrite fn_lookup_insert. congruence.
  - intros v' HL' c. cases; [tauto|]. by eapply l_insg0.
  - intros v' HL' c v2. cases; [congruence|]. by apply l_tail0.
  - intros c d v1 v2. cases; try done.
    + intros _. intros Hd. apply (l_tail2 a d v v2); [by rewrite Hr|done].
    + intros Hd _. apply (l_tail2 c a v1 v); [done|by rewrite Hr].
    + apply l_tail2.
  - congruence.
  - intros w Hw. rewrite HW in Hw. by apply elem_of_nil in Hw.
  - intros c w. destruct (decide (c = a)) as [->|Hca].
    + rewrite fn_lookup_insert. intros Hw. destruct (l_pend0 a w) as [A B]; [rewrite Hr; by right|].
      rewrite !fn_ins, !decide_False; [done|..].
      * intros E. destruct w as [w1 w2]; simpl in *. subst w1. assert (w2 = t) by congruence. by subst.
      * congruence.
    + rewrite fn_lookup_insert_ne by done. specialize (Hpd c Hca). rewrite Hpd. by intros ?%elem_of_nil.
  - intros c. cases; [done|]. rewrite (Hpd c) by done. constructor.
  - rewrite HW. intros c w _ ?%elem_of_nil. done.
  - intros c t'. intros A B. right. exists a. rewrite fn_lookup_insert.
    rewrite fn_ins in B. case_decide; [done|]. rewrite fn_ins in A. case_decide; [done|].
    destruct (l_reg0 c t' A B) as [Hi|[d Hd]]; [rewrite HW in Hi; by apply elem_of_nil in Hi|].
    destruct (decide (d = a)) as [->|Hne].
    + rewrite Hr in Hd. apply elem_of_cons in Hd as [[=]|Hd]; done.
    + rewrite (Hpd d) in Hd by done. by apply elem_of_nil in Hd.
  - intros c. cases; [done|]. apply l_push0.
  - intros c Hc. destruct (l_ent0 c Hc) as [?|[A _]]; [by left|congruence].
  - congruence.
  - intros c w. cases; [done|]. apply l_hand0.
Qed.

(* the load leaves the cache *)
Lemma m_unmap x (M : Prop) : LInv x → (M → v_map x) → (∀ a, v_role x a = QPush → M) →
  LInv (LV (v_role x) (v_flag x) (v_load x) (v_wait x) M (v_on x) (v_ent x) (v_dis x) (v_put x)).
Proof.
  intros HI HM Hpush. destruct HI. split; sim; try done.
  - intros H. destruct (l_off0 H) as (? & ? & ? & ?). split_and!; try done. auto.
  - intros v H. destruct (l_ins0 v H) as (? & ? & ?). split_and!; try done. auto.
  - intros H. destruct (l_term0 H) as (? & ? & ?). split_and!; try done. auto.
Qed.
(* the value was stored, or was stale *)
Lemma m_fill x a v : LInv x → v_role x a = QFill v → ¬ v_map x → LInv (setr x a QNone).
Proof.
  intros HI Hr HM. pose proof (role_on x a HI) as Hon. rewrite Hr in Hon. specialize (Hon ltac:(done)).
  assert (v_load x = Inserted v) as HL.
  { destruct (v_load x) as [|v'|] eqn:E.
    - destruct (l_notail _ HI E a v). unfold tail. by rewrite Hr.
    - rewrite (l_tail _ HI v' E a v); [done|]. unfold tail. by rewrite Hr.
    - destruct (l_term _ HI E) as (_ & _ & E2). rewrite E2 in Hr. done. }
  destruct HI. split; sim; try done; try congruence.
  - intros v' H. destruct (l_ins0 v' H) as (? & ? & ?). split_and!; done.
  - intros v' H b. cases; [tauto|]. by eapply l_insg0.
  - intros v' H b v2. cases; [done|]. by apply l_tail0.
  - intros b c v1 v2. cases; try done. apply l_tail2.
  - intros w Hw. destruct (l_wait0 w Hw). cases; [congruence|done].
  - intros b w. cases; try (by intros ?%elem_of_nil); intros Hw; destruct (l_pend0 b w Hw); [congruence|done].
  - intros b. cases; [constructor|done].
  - intros b w. cases; [by intros ?%elem_of_nil|]. apply l_disj0.
  - intros b t. cases; [done|]. intros A B. destruct (l_reg0 b t A B) as [?|[c Hc]]; [by left|right]. exists c. cases; [by rewrite Hr in Hc|done].
  - intros b. cases; [done|]. apply l_push0.
  - intros b Hb. destruct (l_ent0 b Hb) as [?|[A _]]; [by left|congruence].
  - intros b w. cases; [done|]. apply l_hand0.
Qed.

(* the guard is dropped, and given to the last waiter *)
Lemma m_pop x a w ws : LInv x → v_role x a = QGuard → v_wait x = ws ++ [w] →
  LInv (LV (<[a := QHand w]> (v_role x)) (v_flag x) (v_load x) ws (v_map x) (v_on x)
          (λ b, b = w.1 ∨ v_ent x b) (λ b, b = a ∨ v_dis x b) (v_put x)).
Proof.
  intros HI Hr HW. pose proof (role_on x a HI) as Hon. rewrite Hr in Hon. specialize (Hon ltac:(done)).
  pose proof (guard_loading _ _ HI Hr) as HL.
  pose proof (λ b, guard_alone x a b HI Hr) as Hal.
  assert (w ∈ v_wait x) as Hw by (rewrite HW; apply elem_of_app; right; by apply elem_of_list_singleton).
  destruct (l_wait _ HI w Hw) as [Hw1 Hw2].
  assert (∀ b, pend x b = []) as Hpd.
  { intros b. unfold pend. destruct (v_role x b) eqn:E; try done.
    - assert (b = a) as ->; [|congruence]. apply Hal. unfold owns. by rewrite E.
    - destruct (l_notail _ HI HL b v). unfold tail. by rewrite E. }
  pose proof (l_nodup _ HI) as Hnd. rewrite HW in Hnd. apply NoDup_app in Hnd as (Hnd & Hni & _).
  assert (∀ u, u ∈ ws → u ∈ v_wait x) as Hin by (intros u Hu; rewrite HW; apply elem_of_app; by left).
  destruct HI. split; sim; try done; try congruence.
  - intros _ _. exists a. by rewrite fn_lookup_insert.
  - intros _ b c. cases; try done.
    + intros _ Hc. symmetry. by apply Hal.
    + intros Hb _. by apply Hal.
    + apply (l_one0 HL).
  - intros _ b v. cases; [tauto|]. by apply l_notail0.
  - intros b c v1 v2. cases; try done. apply l_tail2.
  - intros u Hu. destruct (l_wait0 u (Hin u Hu)). cases; [congruence|done].
  - intros b u. rewrite fn_ins. case_decide; [|specialize (Hpd b); rewrite Hpd; by intros ?%elem_of_nil].
    intros ->%elem_of_list_singleton. rewrite fn_ins. case_decide; [congruence|done].
  - intros b. cases; [apply NoDup_singleton|done].
  - intros b u. cases.
    + intros ->%elem_of_list_singleton Hi. apply (Hni w Hi). by apply elem_of_list_singleton.
    + specialize (Hpd b). rewrite Hpd. by intros ?%elem_of_nil.
  - intros b t. cases; [done|]. intros A B. destruct (l_reg0 b t A B) as [Hi|[c Hc]].
    + rewrite HW in Hi. apply elem_of_app in Hi as [?|Hi]; [by left|]. right. exists a. by rewrite fn_lookup_insert.
    + rewrite (Hpd c) in Hc. by apply elem_of_nil in Hc.
  - intros b. cases; [done|]. apply l_push0.
  - intros b [->|Hb].
    + right. split; [done|]. right. exists a, w.2. rewrite fn_lookup_insert. by destruct w.
    + destruct (l_ent0 b Hb) as [?|[A [B|(c & t' & B)]]]; [left; by right| |].
      * left. left. apply Hal. by destruct (v_role x b).
      * specialize (Hpd c). by rewrite B in Hpd.
  - intros _ b. cases; intros Hb; [|right; by apply l_ownent0]. right. apply l_ownent0; [done|]. by rewrite Hr.
  - intros b u. cases; [intros [= <-]; by left|]. intros H1. right. by eapply l_hand0.
Qed.
Lemma m_hand x a b t : LInv x → v_role x a = QHand (b, t) →
  LInv (LV (<[a := QNone]> (v_role x)) (<[b := true]> (v_flag x)) (v_load x) (v_wait x) (v_map x) (v_on x)
          (v_ent x) (v_dis x) (v_put x)).
Proof.
  intros HI Hr. pose proof (role_on x a HI) as Hon. rewrite Hr in Hon. specialize (Hon ltac:(done)).
  assert (v_load x = Loading) as HL.
  { destruct (v_load x) as [|v|] eqn:E; [done| |].
    - destruct (l_insg _ HI v E a). unfold guardish. by rewrite Hr.
    - destruct (l_term _ HI E) as (_ & _ & E2). rewrite E2 in Hr. done. }
  destruct (l_pend _ HI a (b, t)) as [Hb Hbf]; [unfold pend; rewrite Hr; by left|]. simpl in *.
  assert (b ≠ a) as Hba by congruence.
  pose proof (l_disj _ HI a (b, t)) as Hdj. unfold pend in Hdj. rewrite Hr in Hdj. specialize (Hdj ltac:(by left)).
  assert (∀ c, owns x c → c = a) as Hal.
  { intros c Hc. apply (l_one _ HI); [done..|]. unfold owns. by rewrite Hr. }
  assert (∀ c, c ≠ a → pend x c = []) as Hpd.
  { intros c Hne. unfold pend. destruct (v_role x c) eqn:E; try done.
    - destruct Hne. apply Hal. unfold owns. by rewrite E.
    - destruct (l_notail _ HI HL c v). unfold tail. by rewrite E. }
  destruct HI. split; sim; try done; try congruence.
  - intros _ _. exists b. rewrite fn_lookup_insert_ne by done. rewrite Hb. apply fn_lookup_insert.
  - assert (∀ c, match <[a:=QNone]> (v_role x) c with
       | QWait _ => <[b:=true]> (v_flag x) c = true | QWoke | QGuard | QHand _ => True | _ => False end → c = b) as Hcb.
    { intros c. rewrite !fn_ins. case_decide; [done|]. case_decide; [done|]. intros Hc. exfalso. by apply H, Hal. }
    intros _ c d Hc Hd. apply Hcb in Hc, Hd. congruence.
  - intros _ c v. cases; [tauto|]. by apply l_notail0.
  - intros c d v1 v2. cases; try done. apply l_tail2.
  - intros w Hw. destruct (l_wait0 w Hw) as [A B]. rewrite !fn_ins. rewrite !decide_False; [done|..].
    + intros E. destruct w as [w1 w2]. simpl in *. subst w1. assert (w2 = t) by congruence. by subst.
    + congruence.
  - intros c w. rewrite fn_ins. case_decide; [by intros ?%elem_of_nil|]. specialize (Hpd c). rewrite Hpd by done. by intros ?%elem_of_nil.
  - intros c. cases; [constructor|done].
  - intros c w. cases; [by intros ?%elem_of_nil|]. apply l_disj0.
  - intros c t'. rewrite !fn_ins. case_decide; [done|]. case_decide; [done|]. intros A B.
    destruct (l_reg0 c t' A B) as [Hi|[d Hd]]; [by left|]. destruct (decide (d = a)) as [->|Hne].
    + rewrite Hr in Hd. apply elem_of_list_singleton in Hd as [= -> ->]. done.
    + rewrite (Hpd d) in Hd by done. by apply elem_of_nil in Hd.
  - intros c. cases; [done|]. apply l_push0.
  - intros c Hc. destruct (l_ent0 c Hc) as [?|[A [B|(d & t' & B)]]]; [by left| |]; right.
    + assert (c = a) as ->; [|by rewrite Hr in B]. apply Hal. by destruct (v_role x c).
    + split; [done|]. left. assert (d = a) as -> by (apply Hal; by rewrite B). rewrite B in Hr. injection Hr as -> ->.
      rewrite fn_lookup_insert_ne by done. rewrite Hb. apply fn_lookup_insert.
  - intros _ c. rewrite !fn_ins. case_decide; [done|]. case_decide; [subst|].
    + intros _. by apply (l_hand0 a (b, t)).
    + intros Hc. by apply l_ownent0.
  - intros c w. cases; [done|]. apply l_hand0.
Qed.

(* the guard is dropped, with nobody waiting *)
Lemma m_term x a : LInv x → v_role x a = QGuard → v_wait x = [] → (∀ b, v_role x b ≠ QPush) →
  LInv (LV (<[a := QNone]> (v_role x)) (v_flag x) Terminated [] False (v_on x) (v_ent x) (λ b, b = a ∨ v_dis x b) (v_put x)).
Proof.
  intros HI Hr HW Hnp. pose proof (role_on x a HI) as Hon. rewrite Hr in Hon. specialize (Hon ltac:(done)).
  pose proof (guard_loading _ _ HI Hr) as HL. pose proof (λ b, guard_alone x a b HI Hr) as Hal.
  assert (∀ b, <[a := QNone]> (v_role x) b = QNone) as Hno.
  { intros b. rewrite fn_ins. case_decide as Hd; [done|].
    assert (¬ owns x b) as Hnb by (intros Hb; by apply Hd, Hal).
    assert (∀ c, c ≠ a → pend x c = []) as Hpd.
    { intros c Hne. unfold pend. destruct (v_role x c) eqn:E; try done.
      - destruct Hne. apply Hal. unfold owns. by rewrite E.
      - destruct (l_notail _ HI HL c v). unfold tail. by rewrite E. }
    destruct (v_role x b) as [| |t| | |w|v ws|v] eqn:E; try done; unfold owns in Hnb; rewrite E in Hnb; try tauto.
    - by destruct (Hnp b).
    - exfalso. destruct (v_flag x b) eqn:F; [done|]. destruct (l_reg _ HI b t E F) as [Hi|[c Hc]].
      + rewrite HW in Hi. by apply elem_of_nil in Hi.
      + destruct (decide (c = a)) as [->|Hne]; [unfold pend in Hc; rewrite Hr in Hc|rewrite (Hpd c) in Hc by done]; by apply elem_of_nil in Hc.
    - destruct (l_notail _ HI HL b v). unfold tail. by rewrite E.
    - destruct (l_notail _ HI HL b v). unfold tail. by rewrite E. }
  assert (∀ c t b, v_role x c ≠ QHand (b, t)) as Hnh.
  { intros c t b E. assert (c = a) as ->; [|congruence]. apply Hal. unfold owns. by rewrite E. }
  destruct HI. split; sim; try done; try congruence.
  - intros b c v1 v2. by rewrite Hno.
  - intros _. split_and!; [done|tauto|done].
  - intros w ?%elem_of_nil. done.
  - intros b w. rewrite Hno. by intros ?%elem_of_nil.
  - intros b. rewrite Hno. constructor.
  - intros b w. rewrite Hno. by intros ?%elem_of_nil.
  - intros b t. by rewrite Hno.
  - intros b. by rewrite Hno.
  - intros b Hb. left. destruct (l_ent0 b Hb) as [?|[A [B|(c & t' & B)]]]; [by right| |].
    + left. apply Hal. by destruct (v_role x b).
    + by destruct (Hnh c t' b).
  - intros b w. by rewrite Hno.
  - intros v Hv. apply l_put0 in Hv. congruence.
Qed.
End proto.
Arguments lrole : clear implicits. Arguments lv : clear implicits.
