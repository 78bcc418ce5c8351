(* Every step of the concurrent cache keeps the invariant. *)
From stdpp Require Import prelude list functions.
From Verif Require Export ConcInv.

Section concstep.
Context {P : Params} (LW : Lawful P) (PI : ptr_ids P = true) {LG : Ledger P}.
Context {budget ghosts cap e : N}.
Notation K := (K P). Notation V := (V P). Notation RS := (RS P).
Notation shard := (shard P). Notation sys := (sys P). Notation pc := (pc P). Notation agent := (agent P).
Notation CInv := (CInv budget ghosts cap e).
Implicit Types (s : shard) (k : K) (v : V) (rs : RS) (p : plh) (a b : nat) (l : loc) (j : nat) (y : sys) (x : pc) (ag : agent).

(* ---- program counters and parts ---- *)
Definition same_pcs y y' : Prop := ∀ b, a_pc <$> y_agents y' !! b = a_pc <$> y_agents y !! b.
Lemma only_goto y y' a ag x : y_agents y !! a = Some ag → same_pcs y y' → only_pc y (goto y' a x) a x.
Proof.
  intros Ha Hs b. rewrite lookup_goto. specialize (Hs b). case_decide.
  - subst. rewrite Ha in Hs. by destruct (y_agents y' !! a).
  - rewrite <-Hs. by destruct (y_agents y' !! b).
Qed.
Lemma only_agents y y1 y2 a x : only_pc y y1 a x → y_agents y2 = y_agents y1 → only_pc y y2 a x.
Proof. intros H Hy b. rewrite Hy. apply H. Qed.
Lemma same_pcs_refl y : same_pcs y y.
Proof. done. Qed.
Lemma same_pcs_agent y y' b f : same_pcs y y' → (∀ ag, a_pc (f ag) = a_pc ag) → same_pcs y (with_agent y' b f).
Proof. intros Hs Hf c. rewrite lookup_agent, <-(Hs c). case_decide; destruct (y_agents y' !! c); simpl; by rewrite ?Hf. Qed.
Lemma role_only y y' a x l b : only_pc y y' a x → role y' l b = if decide (b = a) then role_pc l x else role y l b.
Proof.
  intros H. specialize (H b). unfold role. destruct (y_agents y' !! b) as [bg|], (y_agents y !! b) as [bg0|]; case_decide; simpl in *; try done; congruence.
Qed.
Lemma role_at y a ag l : y_agents y !! a = Some ag → role y l a = role_pc l (a_pc ag).
Proof. intros Ha. unfold role. by rewrite Ha. Qed.
Lemma flag_at y a ag : y_agents y !! a = Some ag → flag y a = a_flag ag.
Proof. intros Ha. unfold flag. by rewrite Ha. Qed.
Lemma flag_via y y' a x b : y_agents y' = y_agents (goto y a x) → flag y' b = flag y b.
Proof. intros H. unfold flag at 1. rewrite H. fold (flag (goto y a x) b). apply flag_goto. Qed.
Lemma one_part y l l' b : role y l b ≠ QNone → role y l' b ≠ QNone → l = l'.
Proof.
  unfold role, role_pc. destruct (y_agents y !! b); [|done]. destruct (part_of _) as [[[j p] r]|]; [|done].
  repeat case_decide; congruence.
Qed.
Lemma role_own j p x r : part_of x = Some (j, p, r) → role_pc (pl j p) x = r.
Proof. intros H. unfold role_pc. by rewrite H, decide_True. Qed.
Lemma role_other j p x r l : part_of x = Some (j, p, r) → l ≠ pl j p → role_pc l x = QNone.
Proof. intros H Hl. unfold role_pc. by rewrite H, decide_False. Qed.
Lemma role_none x l : part_of x = None → role_pc l x = QNone.
Proof. intros H. unfold role_pc. by rewrite H. Qed.
(* x has no part in any load but p of shard j *)
Definition partakes j p x : Prop := match part_of x with Some (j', p', _) => j' = j ∧ p' = p | None => True end.
Lemma partakes_other j p x l : partakes j p x → l ≠ pl j p → role_pc l x = QNone.
Proof.
  unfold partakes, role_pc. destruct (part_of x) as [[[j' p'] r]|]; [|done]. intros [-> ->] Hl. by rewrite decide_False.
Qed.

(* ---- locks ---- *)
Lemma free_excl y a h : free y h = true → excl y a h.
Proof.
  unfold free. rewrite forallb_forall. intros H b bg Hne Hb h' Hh'.
  specialize (H (b, bg)). rewrite <-elem_of_list_In in H. specialize (H ltac:(apply elem_of_lookup_imap; eauto)).
  simpl in H. rewrite forallb_forall in H. apply H. by apply elem_of_list_In.
Qed.
Local Ltac pcs x := destruct x; simpl; try done;
  try match goal with js : list nat |- _ => destruct js; simpl; try done end;
  try match goal with ws : list waiter |- _ => destruct ws as [|[? [|]] ?]; simpl; try done end.
Lemma entered_holds a x h h' : wants a x = Some h → h' ∈ holds a (entered x) → h' ∈ holds a x ∨ h' = h.
Proof. pcs x; intros [= <-]; rewrite ?elem_of_app, ?elem_of_cons, ?elem_of_nil; tauto. Qed.
Lemma entered_part a x h : wants a x = Some h → part_of (entered x) = part_of x.
Proof. pcs x. Qed.
Lemma entered_shards a x h j : wants a x = Some h → j ∈ pc_shards (entered x) → j ∈ pc_shards x.
Proof. pcs x. Qed.
Lemma entered_shape a x h : wants a x = Some h → pc_shape x → pc_shape (entered x).
Proof. pcs x. destruct nm; [done|]. intros _ H. destruct ws; [done|simpl in H; lia]. Qed.
Lemma entered_bump a x h j i v c : wants a x = Some h → entered x ≠ GBump j i v c.
Proof. pcs x. Qed.

(* ---- steps without effect on any load ---- *)
Lemma cinv_stutter y y' a ag x' es : CInv y → y_agents y !! a = Some ag → only_pc y y' a x' →
  y_cache y' = y_cache y → (∀ l, y_ph y' l = y_ph y l) → (∀ b, flag y' b = flag y b) →
  y_log y' = y_log y ++ es → (∀ j, sections j es = []) → (∀ l, Forall (quiet_ev l) es) →
  part_of x' = part_of (a_pc ag) →
  (∀ h, h ∈ holds a x' → h ∈ holds a (a_pc ag) ∨ excl y a h) →
  (∀ j, j ∈ pc_shards x' → j ∈ pc_shards (a_pc ag)) → pc_shape x' →
  (∀ j i v c, x' ≠ GBump j i v c) → CInv y'.
Proof.
  intros HC Ha Ho Hc Hph Hf Hl Hs Hq Hpt Hh Hj Hsh Hb. eapply cinv_still; try done.
  - intros j p r. rewrite Hpt. eauto.
  - intros l. eapply linv_frame; [by apply (ci_load _ _ _ _ _ HC)|..]; try done.
    + intros b. rewrite (role_only _ _ _ _ _ _ Ho). case_decide; [|done]. subst. rewrite (role_at _ _ _ _ Ha). unfold role_pc. by rewrite Hpt.
    + unfold pend_at, shard_at. by rewrite Hc.
    + unfold next_id, shard_at. by rewrite Hc.
Qed.

(* ---- steps on one load ---- *)
Lemma cinv_local y y' a ag x' j p es : CInv y → y_agents y !! a = Some ag → only_pc y y' a x' →
  y_cache y' = y_cache y → (∀ l, l ≠ pl j p → y_ph y' l = y_ph y l) →
  (∀ b, flag y' b ≠ flag y b → b = a ∨ role y (pl j p) b ≠ QNone) →
  y_log y' = y_log y ++ es → (∀ j, sections j es = []) → (∀ l, l ≠ pl j p → Forall (quiet_ev l) es) →
  partakes j p (a_pc ag) → partakes j p x' →
  (∀ h, h ∈ holds a x' → h ∈ holds a (a_pc ag) ∨ excl y a h) →
  (∀ j, j ∈ pc_shards x' → j ∈ pc_shards (a_pc ag)) → pc_shape x' →
  (∀ j p r, part_of x' = Some (j, p, r) → ∃ r', part_of (a_pc ag) = Some (j, p, r')) →
  (∀ j i v c, x' ≠ GBump j i v c) → LInv (lview y' (pl j p)) → CInv y'.
Proof.
  intros HC Ha Ho Hc Hph Hf Hl Hs Hq Hab Hab' Hh Hj Hsh Hpt Hb HL. eapply cinv_still; try done.
  intros l. destruct (decide (l = pl j p)) as [->|Hne]; [done|].
  assert (∀ b, role y' l b = role y l b) as Hr.
  { intros b. rewrite (role_only _ _ _ _ _ _ Ho). case_decide; [|done]. subst. rewrite (role_at _ _ _ _ Ha).
    by rewrite !(partakes_other j p) by done. }
  eapply linv_frame; [by apply (ci_load _ _ _ _ _ HC)|..]; try done.
  - intros b t Hb'. destruct (decide (flag y' b = flag y b)) as [|Hd]; [done|exfalso]. destruct (Hf b Hd) as [->|Hr2].
    + rewrite (role_at _ _ _ _ Ha), (partakes_other j p) in Hb' by done. done.
    + destruct Hne. eapply one_part; [|exact Hr2]. by rewrite Hb'.
  - by apply Hph.
  - unfold pend_at, shard_at. by rewrite Hc.
  - unfold next_id, shard_at. by rewrite Hc.
  - by apply Hq.
Qed.
(* roles and the rest of the load after such a step *)
Lemma lview_role y y' a ag x' l b : y_agents y !! a = Some ag → only_pc y y' a x' →
  role y' l b = <[a := role_pc l x']> (role y l) b.
Proof. intros Ha Ho. rewrite (role_only _ _ _ _ _ _ Ho), fn_ins. done. Qed.
Lemma pend_same y y' l : y_cache y' = y_cache y → is_Some (pend_at y' l) ↔ is_Some (pend_at y l).
Proof. intros Hc. unfold pend_at, shard_at. by rewrite Hc. Qed.
Lemma next_same y y' j : y_cache y' = y_cache y → next_id y' j = next_id y j.
Proof. intros Hc. unfold next_id, shard_at. by rewrite Hc. Qed.

(* only the part of one agent changes *)
Lemma cinv_role y y' a ag x' j p r r' es : CInv y → y_agents y !! a = Some ag → only_pc y y' a x' →
  y_cache y' = y_cache y → (∀ l, y_ph y' l = y_ph y l) → (∀ b, b ≠ a → flag y' b = flag y b) →
  (flag y' a = flag y a ∨ ∀ t, r' ≠ QWait t) →
  y_log y' = y_log y ++ es → (∀ j, sections j es = []) → (∀ l, Forall (quiet_ev l) es) →
  part_of (a_pc ag) = Some (j, p, r) → (part_of x' = Some (j, p, r') ∨ (part_of x' = None ∧ r' = QNone)) →
  (∀ h, h ∈ holds a x' → h ∈ holds a (a_pc ag) ∨ excl y a h) →
  (∀ j, j ∈ pc_shards x' → j ∈ pc_shards (a_pc ag)) → pc_shape x' →
  (∀ j i v c, x' ≠ GBump j i v c) → LInv (setr (lview y (pl j p)) a r') → CInv y'.
Proof.
  intros HC Ha Ho Hc Hph Hf Hfa Hl Hs Hq Hp Hp' Hh Hj Hsh Hb HL.
  assert (partakes j p (a_pc ag)) as A1 by (unfold partakes; by rewrite Hp).
  assert (partakes j p x') as A2 by (unfold partakes; destruct Hp' as [->|[-> _]]; done).
  assert (role_pc (pl j p) x' = r') as Hr'.
  { destruct Hp' as [H|[H ->]]; [by eapply role_own|by apply role_none]. }
  eapply (cinv_local y y' a ag x' j p es); try done.
  - intros b Hne. left. destruct (decide (b = a)); [done|]. by destruct Hne; apply Hf.
  - intros j' p' r0 H. destruct Hp' as [H'|[H' _]]; [|congruence]. rewrite H' in H. injection H as <- <- <-. eauto.
  - eapply linv_ext; [exact HL|..]; simpl; try done.
    + intros b. rewrite (role_only _ _ _ _ _ _ Ho), fn_ins. case_decide; [done|done].
    + intros b t. rewrite fn_ins. case_decide; [|intros _; by apply Hf]. subst b. intros ->. destruct Hfa as [|Hfa]; [done|by destruct (Hfa t)].
    + unfold at_load. by rewrite Hph.
    + unfold waiting_on. by rewrite Hph.
    + by apply pend_same.
    + by rewrite (next_same y y').
    + intros b. by eapply ent_quiet.
    + intros b. by eapply dis_mono.
    + intros v. by eapply put_quiet.
Qed.

(* ---- facts about an agent that has a part ---- *)
Lemma part_linv y a ag j p r : CInv y → y_agents y !! a = Some ag → part_of (a_pc ag) = Some (j, p, r) →
  LInv (lview y (pl j p)) ∧ role y (pl j p) a = r.
Proof. intros HC Ha Hp. split; [apply (ci_load _ _ _ _ _ HC)|]. rewrite (role_at _ _ _ _ Ha). by eapply role_own. Qed.
Lemma part_alive y a ag j p r : CInv y → y_agents y !! a = Some ag → part_of (a_pc ag) = Some (j, p, r) → r ≠ QNone →
  at_load y (pl j p) ≠ Terminated ∧ v_on (lview y (pl j p)) = true.
Proof.
  intros HC Ha Hp Hr. destruct (part_linv _ _ _ _ _ _ HC Ha Hp) as [HL Hra]. split.
  - intros H. destruct (l_term _ HL H) as (_ & _ & H'). simpl in H'. rewrite H' in Hra. done.
  - eapply role_on; [done|]. simpl. by rewrite Hra.
Qed.

(* ---- failures ---- *)
Definition cfails y (f : fail) : Prop :=
  ∃ j s (z : sect P), shard_at y j = Some s ∧ sync_sect z ∧ xfails s z f.
Definition keeps_inv y (r : res sys) : Prop := wp (cfails y) r CInv.

(* ---- taking a lock ---- *)
Lemma step_enter y a ag h : CInv y → y_agents y !! a = Some ag → wants a (a_pc ag) = Some h → free y h = true →
  CInv (goto y a (entered (a_pc ag))).
Proof.
  intros HC Ha Hw Hf. eapply (cinv_stutter y _ a ag (entered (a_pc ag)) []); try done.
  - eapply only_goto; [done|apply same_pcs_refl].
  - intros b. apply flag_goto.
  - by rewrite app_nil_r.
  - by eapply entered_part.
  - intros h' Hh'. destruct (entered_holds _ _ _ _ Hw Hh') as [H| ->]; [by left|right; by apply free_excl].
  - intros j. by eapply entered_shards.
  - eapply entered_shape; [done|]. by apply (po_shape _ _ (ci_pc _ _ _ _ _ HC _ _ Ha)).
  - intros j i v c. by eapply entered_bump.
Qed.
(* a step inside the agent *)
Lemma step_goto y a ag x' : CInv y → y_agents y !! a = Some ag → part_of x' = part_of (a_pc ag) →
  (∀ h, h ∈ holds a x' → h ∈ holds a (a_pc ag)) → (∀ j, j ∈ pc_shards x' → j ∈ pc_shards (a_pc ag)) → pc_shape x' →
  (∀ j i v c, x' ≠ GBump j i v c) → CInv (goto y a x').
Proof.
  intros HC Ha Hp Hh Hj Hs Hb. eapply (cinv_stutter y _ a ag x' []); try done.
  - eapply only_goto; [done|apply same_pcs_refl].
  - intros b. apply flag_goto.
  - by rewrite app_nil_r.
  - intros h Hh'. left. by apply Hh.
Qed.
Lemma step_finish y a ag r : CInv y → y_agents y !! a = Some ag → part_of (a_pc ag) = None → CInv (finish y a r).
Proof.
  intros HC Ha Hp. eapply (cinv_stutter y _ a ag (ADone r) [(a, EvRet r)]); try done.
  - eapply only_agents; [eapply only_goto; [done|apply same_pcs_refl]|done].
  - intros b. apply flag_goto.
  - intros l. by repeat constructor.
  - by intros h ?%elem_of_nil.
  - by intros h ?%elem_of_nil.
Qed.

(* ---- the steps of waiting agents ---- *)
(* an agent that is done with its load *)
Lemma step_drop_out y y' a ag x' j p r es : CInv y → y_agents y !! a = Some ag → part_of (a_pc ag) = Some (j, p, r) →
  only_pc y y' a x' → y_cache y' = y_cache y → (∀ l, y_ph y' l = y_ph y l) → (∀ b, b ≠ a → flag y' b = flag y b) →
  y_log y' = y_log y ++ es → (∀ j, sections j es = []) → (∀ l, Forall (quiet_ev l) es) →
  part_of x' = None → holds a x' = [] → pc_shards x' = [] → pc_shape x' → (∀ j i v c, x' ≠ GBump j i v c) →
  r = QPush ∨ ((r = QWoke ∨ (∃ t, r = QWait t) ∧ a_flag ag = true) ∧ at_load y (pl j p) ≠ Loading) → CInv y'.
Proof.
  intros HC Ha Hp Ho Hc Hph Hf Hl Hs Hq Hp' Hh Hj Hsh Hb Hr.
  destruct (part_linv _ _ _ _ _ _ HC Ha Hp) as [HL Hra].
  assert (r ≠ QNone) as Hn by (destruct Hr as [->|[[->|[[t ->] _]] _]]; done).
  destruct (part_alive _ _ _ _ _ _ HC Ha Hp Hn) as [Ht Hon].
  eapply (cinv_role y y' a ag x' j p r QNone es); try done.
  - by right.
  - right. done.
  - rewrite Hh. by intros h ?%elem_of_nil.
  - rewrite Hj. by intros h ?%elem_of_nil.
  - apply m_role; try done; simpl; rewrite ?Hra.
    + destruct Hr as [->|[[->|[[t ->] _]] _]]; done.
    + intros Hld. destruct Hr as [->|[_ ?]]; done.
    + intros v. destruct Hr as [->|[[->|[[t ->] _]] _]]; done.
    + intros t ->. destruct Hr as [|[[|[_ Hfl]] _]]; try done. by rewrite (flag_at _ _ _ Ha).
Qed.

Lemma step_push y a ag j p md : CInv y → y_agents y !! a = Some ag → a_pc ag = JPushIn j p md →
  keeps_inv y (push_waiter y a j p md).
Proof.
  intros HC Ha Hpc.
  assert (part_of (a_pc ag) = Some (j, p, QPush)) as Hp by (by rewrite Hpc).
  destruct (part_linv _ _ _ _ _ _ HC Ha Hp) as [HL Hra].
  destruct (part_alive _ _ _ _ _ _ HC Ha Hp) as [Ht Hon]; [done|].
  unfold push_waiter. destruct (at_load y (pl j p)) as [|v|] eqn:El; [|cbn|done].
  - set (task := match md with JTask _ => true | _ => false end).
    assert (∀ y' x', y_agents y' = y_agents (goto (with_agent (with_agent y a (set_flag false)) a (match md with JTask wk => set_waker wk | _ => id end)) a x') →
      y_cache y' = y_cache y → (∀ l, y_ph y' l = <[pl j p := PSt (waiting_on y (pl j p) ++ [(a, task)]) Loading]> (y_ph y) l) →
      y_log y' = y_log y ++ [(a, EvWait (pl j p))] → part_of x' = Some (j, p, QWait task) →
      holds a x' = [] → pc_shape x' → (∀ j i v c, x' ≠ GBump j i v c) → pc_shards x' = [j] → CInv y') as Hgen.
    { intros y' x' Hag Hc Hph Hlg Hp' Hh Hsh Hb Hjs.
      assert (only_pc y y' a x') as Ho.
      { eapply only_agents; [eapply only_goto; [done|]|exact Hag]. apply same_pcs_agent; [apply same_pcs_agent; [apply same_pcs_refl|done]|].
        by destruct md. }
      assert (∀ b, flag y' b = <[a := false]> (flag y) b) as Hfl.
      { intros b. rewrite fn_ins. unfold flag. rewrite Hag, lookup_goto, !lookup_agent. case_decide; [subst|].
        - rewrite Ha. simpl. by destruct md.
        - by destruct (y_agents y !! b). }
      eapply (cinv_local y y' a ag x' j p); try done.
      - intros l Hne. rewrite Hph. by apply fn_lookup_insert_ne.
      - intros b Hne. left. rewrite Hfl, fn_ins in Hne. case_decide; done.
      - intros l _. by repeat constructor.
      - unfold partakes. by rewrite Hp.
      - unfold partakes. by rewrite Hp'.
      - rewrite Hh. by intros h ?%elem_of_nil.
      - by rewrite Hjs, Hpc.
      - intros j' p' r'. rewrite Hp'. intros [= <- <- <-]. by exists QPush.
      - eapply linv_ext; [apply (m_push _ a task HL); [done|done]|..]; simpl.
        + intros b. rewrite (role_only _ _ _ _ _ _ Ho), fn_ins. case_decide; [|done]. by erewrite role_own.
        + intros b t _. apply Hfl.
        + unfold at_load at 1. rewrite Hph, fn_lookup_insert. done.
        + unfold waiting_on at 1. rewrite Hph, fn_lookup_insert. done.
        + by apply pend_same.
        + by rewrite (next_same y y').
        + intros b. eapply ent_quiet; [done|]. by repeat constructor.
        + intros b. by eapply dis_mono.
        + intros v. eapply put_quiet; [done|]. by repeat constructor. }
    cbn. destruct md as [[to|]|wk]; cbn; [eapply (Hgen _ (JStart j p to))|eapply (Hgen _ (JPark j p None))|eapply (Hgen _ (FIdle j p wk))]; try done.
    + unfold goto, with_agent; simpl. by rewrite (list_alter_id id).
    + unfold goto, with_agent; simpl. by rewrite (list_alter_id id).
  - eapply (step_drop_out y _ a ag (ADone (RetVal v (Some (pl j p))))); try done.
    + eapply only_agents; [eapply only_goto; [done|apply same_pcs_refl]|done].
    + intros b _. apply flag_goto.
    + intros l. by repeat constructor.
    + by left.
Qed.

(* ---- what a lock excludes ---- *)
Lemma compat_MW h m m' : m = MW ∨ m' = MW → compat (h, m) (h, m') = false.
Proof. unfold compat. simpl. rewrite decide_True by done. destruct m, m'; naive_solver. Qed.
Lemma pend_holds b x l : pend_r (role_pc l x) ≠ [] → (LState l, MW) ∈ holds b x.
Proof.
  unfold role_pc. destruct x; simpl; try done; try (destruct ws as [|? ?]; simpl); try destruct nm; simpl; try done;
    case_decide; try done; intros _; subst; rewrite ?elem_of_app, ?elem_of_cons; tauto.
Qed.
Lemma push_holds b x l : role_pc l x = QPush → (LShard l.1, MW) ∈ holds b x.
Proof.
  unfold role_pc. destruct x; simpl; try done; try (destruct ws as [|? ?]; simpl); try destruct nm; simpl; try done;
    case_decide; try done; intros _; subst; simpl; rewrite ?elem_of_cons; tauto.
Qed.
Lemma no_pend y a ag l m : CInv y → y_agents y !! a = Some ag → (LState l, m) ∈ holds a (a_pc ag) →
  ∀ b, b ≠ a → pend_r (role y l b) = [].
Proof.
  intros HC Ha Hm b Hne. destruct (decide (pend_r (role y l b) = [])) as [|Hp]; [done|exfalso].
  unfold role in Hp. destruct (y_agents y !! b) as [bg|] eqn:Hb; [|done].
  pose proof (ci_lock _ _ _ _ _ HC a b ag bg ltac:(done) Ha Hb _ _ Hm (pend_holds b _ _ Hp)) as H.
  rewrite compat_MW in H by auto. done.
Qed.
Lemma no_push y a ag j m id : CInv y → y_agents y !! a = Some ag → (LShard j, m) ∈ holds a (a_pc ag) →
  ∀ b, b ≠ a → role y (j, id) b ≠ QPush.
Proof.
  intros HC Ha Hm b Hne Hp.
  unfold role in Hp. destruct (y_agents y !! b) as [bg|] eqn:Hb; [|done].
  pose proof (ci_lock _ _ _ _ _ HC a b ag bg ltac:(done) Ha Hb _ _ Hm (push_holds b _ _ Hp)) as H.
  simpl in H. rewrite compat_MW in H by auto. done.
Qed.
Lemma no_bump y a ag j b bg i v c : CInv y → y_agents y !! a = Some ag → (LShard j, MW) ∈ holds a (a_pc ag) →
  b ≠ a → y_agents y !! b = Some bg → a_pc bg ≠ GBump j i v c.
Proof.
  intros HC Ha Hm Hne Hb Hp.
  pose proof (ci_lock _ _ _ _ _ HC a b ag bg ltac:(done) Ha Hb _ (LShard j, MR) Hm) as H.
  rewrite Hp in H. simpl in H. rewrite compat_MW in H by auto. specialize (H ltac:(by left)). done.
Qed.

(* ---- leaving the list of waiters ---- *)
Lemma swap_remove_perm {A} (l : list A) i (w : A) : l !! i = Some w → w :: swap_remove l i ≡ₚ l.
Proof.
  intros Hi. unfold swap_remove. destruct l as [|z l] using rev_ind; [done|]. clear IHl.
  rewrite list.last_snoc, app_length. simpl. case_decide.
  - assert (i = length l) as -> by lia. rewrite lookup_app_r, Nat.sub_diag in Hi by lia. injection Hi as ->.
    rewrite take_app. by rewrite Permutation_app_comm.
  - assert (i < length l) as Hlt. { apply lookup_lt_Some in Hi. rewrite app_length in Hi. simpl in Hi. lia. }
    rewrite lookup_app_l in Hi by done. replace (length l + 1 - 1) with (length l) by lia. rewrite take_app.
    rewrite <-(take_drop_middle l i w Hi) at 2.
    rewrite insert_take_drop by done.
    rewrite <-!Permutation_middle. simpl. rewrite app_nil_r. constructor.
Qed.
Lemma step_leave y a ag j p t (r : ret P) : CInv y → y_agents y !! a = Some ag → part_of (a_pc ag) = Some (j, p, QWait t) →
  (LState (pl j p), MW) ∈ holds a (a_pc ag) → a_flag ag = false →
  keeps_inv y (let! y := leave y j p (a, t) in Ok (finish y a r)).
Proof.
  intros HC Ha Hp Hh Hfl. destruct (part_linv _ _ _ _ _ _ HC Ha Hp) as [HL Hra].
  assert (∀ b, pend (lview y (pl j p)) b = []) as Hnp.
  { intros b. destruct (decide (b = a)) as [->|Hne]; [unfold pend; simpl; by rewrite Hra|]. by apply (no_pend y a ag _ MW). }
  assert (flag y a = false) as Hfa by (by rewrite (flag_at _ _ _ Ha)).
  pose proof (m_listed _ a t HL Hra Hfa Hnp) as Hin. simpl in Hin.
  unfold leave. match goal with |- context [@list_find ?A ?f ?d ?ws] => destruct (@list_find A f d ws) as [[i w]|] eqn:E end.
  2:{ exfalso. apply list_find_None in E. rewrite Forall_forall in E. by eapply E. }
  apply list_find_Some in E as (Hi & <- & _). cbn.
  assert (only_pc y (finish (with_ph y (pl j p) (PSt (swap_remove (waiting_on y (pl j p)) i) (at_load y (pl j p)))) a r) a (ADone r)) as Ho.
  { eapply only_agents; [eapply only_goto; [done|apply same_pcs_refl]|done]. }
  eapply (cinv_local y _ a ag (ADone r) j p [(a, EvRet r)]); try done.
  - intros l Hne. simpl. by rewrite fn_lookup_insert_ne.
  - intros b Hne. destruct Hne. by eapply flag_via.
  - intros l _. by repeat constructor.
  - unfold partakes. by rewrite Hp.
  - by intros h ?%elem_of_nil.
  - by intros h ?%elem_of_nil.
  - eapply linv_ext; [apply (m_leave _ a t (swap_remove (waiting_on y (pl j p)) i) HL Hra Hfa Hnp)|..]; simpl.
    + by apply swap_remove_perm.
    + intros b. rewrite (role_only _ _ _ _ _ _ Ho), fn_ins. done.
    + intros b t0 _. by eapply flag_via.
    + unfold at_load at 1; simpl. by rewrite fn_lookup_insert.
    + unfold waiting_on at 1; simpl. by rewrite fn_lookup_insert.
    + done.
    + done.
    + intros b. eapply ent_quiet; [done|]. by repeat constructor.
    + intros b. by eapply dis_mono.
    + intros v. eapply put_quiet; [done|]. by repeat constructor.
Qed.

(* ---- becoming the guard ---- *)
Lemma step_start y a ag j p r dbg sm : CInv y → y_agents y !! a = Some ag → part_of (a_pc ag) = Some (j, p, r) →
  at_load y (pl j p) = Loading → r = QWoke ∨ (∃ t, r = QWait t) ∧ a_flag ag = true →
  (∀ h, h ∈ s_holds j sm → h ∈ holds a (a_pc ag)) → pc_shards (a_pc ag) = [j] → CInv (start_loading dbg y a j p sm).
Proof.
  intros HC Ha Hp Hl Hr Hh Hj. destruct (part_linv _ _ _ _ _ _ HC Ha Hp) as [HL Hra].
  assert (r ≠ QNone) as Hn by (destruct Hr as [->|[[t ->] _]]; done).
  destruct (part_alive _ _ _ _ _ _ HC Ha Hp Hn) as [Ht Hon].
  assert (LInv (setr (lview y (pl j p)) a QGuard)) as HL'.
  { apply m_role; try done; simpl; rewrite ?Hra, ?Hl.
    + destruct Hr as [->|[[t ->] _]]; done.
    + intros _. rewrite (flag_at _ _ _ Ha). by destruct Hr as [->|[[t ->] Hf]].
    + intros v. destruct Hr as [->|[[t ->] _]]; done.
    + intros v. done.
    + intros t ->. destruct Hr as [|[_ Hf]]; try done. by rewrite (flag_at _ _ _ Ha). }
  assert (∀ x' es, part_of x' = Some (j, p, QGuard) → holds a x' = s_holds j sm ∨ holds a x' = [] → pc_shards x' = [j] → pc_shape x' →
    (∀ j i v c, x' ≠ GBump j i v c) → (∀ i, sections i es = []) → (∀ l, Forall (quiet_ev l) es) → ∀ y',
    y_agents y' = y_agents (goto y a x') → y_cache y' = y_cache y → y_ph y' = y_ph y → y_log y' = y_log y ++ es → CInv y') as Hgen.
  { intros x' es Hp' Hh' Hj' Hs Hb He Hq y' Hag Hc Hph Hlg.
    eapply (cinv_role y y' a ag x' j p r QGuard es); try done.
    - eapply only_agents; [eapply only_goto; [done|apply same_pcs_refl]|done].
    - intros l. by rewrite Hph.
    - intros b Hb'. unfold flag. rewrite Hag, lookup_goto. rewrite decide_False by done. by destruct (y_agents y !! b).
    - by right.
    - by left.
    - intros h. destruct Hh' as [-> | ->]; [left; by apply Hh|by intros ?%elem_of_nil].
    - by rewrite Hj', Hj. }
  unfold start_loading, start_done. destruct dbg; [|destruct sm].
  - eapply (Hgen (SWant j p sm) []); try done; [by left|]. by rewrite app_nil_r.
  - eapply (Hgen (AGuard j p) [(a, EvGuard (pl j p))]); try done; [by right|]. intros l. by repeat constructor.
  - eapply (Hgen (AGuard j p) [(a, EvGuard (pl j p))]); try done; [by right|]. intros l. by repeat constructor.
  - eapply (Hgen (DWant j p) []); try done; [by right|]. by rewrite app_nil_r.
Qed.
Lemma step_asserted y a ag j p sm : CInv y → y_agents y !! a = Some ag → a_pc ag = SIn j p sm →
  at_load y (pl j p) = Loading ∧ CInv (start_done y a j p sm).
Proof.
  intros HC Ha Hpc. assert (part_of (a_pc ag) = Some (j, p, QGuard)) as Hp by (by rewrite Hpc).
  destruct (part_linv _ _ _ _ _ _ HC Ha Hp) as [HL Hra]. split; [by apply (guard_loading _ a HL)|].
  assert (∀ x' es, part_of x' = Some (j, p, QGuard) → holds a x' = [] → pc_shards x' = [j] → pc_shape x' →
    (∀ j i v c, x' ≠ GBump j i v c) → (∀ i, sections i es = []) → (∀ l, Forall (quiet_ev l) es) → ∀ y',
    y_agents y' = y_agents (goto y a x') → y_cache y' = y_cache y → y_ph y' = y_ph y → y_log y' = y_log y ++ es → CInv y') as Hgen.
  { intros x' es Hp' Hh' Hj' Hs Hb He Hq y' Hag Hc Hph Hlg.
    eapply (cinv_stutter y y' a ag x' es); try done.
    - eapply only_agents; [eapply only_goto; [done|apply same_pcs_refl]|done].
    - intros l. by rewrite Hph.
    - intros b. by eapply flag_via.
    - by rewrite Hp'.
    - rewrite Hh'. by intros h ?%elem_of_nil.
    - by rewrite Hj', Hpc. }
  unfold start_done. destruct sm.
  - eapply (Hgen (AGuard j p) [(a, EvGuard (pl j p))]); try done. intros l. by repeat constructor.
  - eapply (Hgen (AGuard j p) [(a, EvGuard (pl j p))]); try done. intros l. by repeat constructor.
  - eapply (Hgen (DWant j p) []); try done. by rewrite app_nil_r.
Qed.
End concstep.
