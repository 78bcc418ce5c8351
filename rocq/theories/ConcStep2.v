(* The steps of guards and of the agents that notify, and the steps on a shard. *)
From stdpp Require Import prelude list functions.
From Verif Require Export ConcStep.

Section concstep2.
Context {P : Params} (LW : Lawful P) (PI : ptr_ids P = true) {LG : Ledger P}.
Context {budget ghosts cap e : N}.
Notation K := (K P). Notation V := (V P). Notation RS := (RS P).
Notation shard := (shard P). Notation sys := (sys P). Notation pc := (pc P). Notation agent := (agent P).
Notation CInv := (CInv budget ghosts cap e).
Implicit Types (s : shard) (k : K) (v : V) (rs : RS) (p : plh) (a b : nat) (l : loc) (j : nat) (y : sys) (x : pc) (ag : agent).

(* ---- notifying ---- *)
Lemma ent_logs y y' l a b (ev : cevent P) : y_log y' = y_log y ++ [(a, ev)] →
  ent y' l b ↔ ent y l b ∨ (b = a ∧ ∃ k, ev = EvSec l.1 (OJoin k) (SNew l.2)) ∨ ev = EvGive l b.
Proof.
  intros Hl. unfold ent. rewrite Hl. setoid_rewrite elem_of_app. setoid_rewrite elem_of_list_singleton. split.
  - intros [[k [H|H]]|[c [H|H]]]; [eauto| |eauto|]; injection H; naive_solver.
  - intros [[[k H]|[c H]]|[[-> [k ->]]| ->]]; eauto 6.
Qed.
Lemma dis_logs y y' l a b (ev : cevent P) : y_log y' = y_log y ++ [(a, ev)] →
  dis y l b ∨ (b = a ∧ ((∃ v, ev = EvPut l v) ∨ (∃ c, ev = EvGive l c) ∨ ev = EvEnd l)) → dis y' l b.
Proof.
  intros Hl. unfold dis. rewrite Hl. setoid_rewrite elem_of_app. setoid_rewrite elem_of_list_singleton.
  intros [[[v H]|[[c H]|H]]|[-> [[v ->]|[[c ->]| ->]]]]; eauto 6.
Qed.
Lemma put_logs y y' l a v (ev : cevent P) : y_log y' = y_log y ++ [(a, ev)] →
  putv y' l v ↔ putv y l v ∨ ev = EvPut l v.
Proof.
  intros Hl. unfold putv. rewrite Hl. setoid_rewrite elem_of_app. setoid_rewrite elem_of_list_singleton. naive_solver.
Qed.

(* the guard's insert takes the state lock *)
Lemma step_put y a ag j p rs v wl : CInv y → y_agents y !! a = Some ag → a_pc ag = IIn j p rs v wl →
  let ws := waiting_on y (pl j p) in
  CInv (logged (goto (with_ph y (pl j p) (PSt [] (Inserted v))) a
    (NGo j p ws (NIns rs v wl (match ws with [] => false | _ => true end)))) a (EvPut (pl j p) v)).
Proof.
  intros HC Ha Hpc ws. assert (part_of (a_pc ag) = Some (j, p, QGuard)) as Hp by (by rewrite Hpc).
  destruct (part_linv _ _ _ _ _ _ HC Ha Hp) as [HL Hra].
  set (x' := NGo _ _ _ _). set (y' := logged _ _ _).
  assert (part_of x' = Some (j, p, QNote v ws)) as Hp' by done.
  assert (only_pc y y' a x') as Ho.
  { eapply only_agents; [eapply only_goto; [done|apply same_pcs_refl]|done]. }
  eapply (cinv_local y y' a ag x' j p [(a, EvPut (pl j p) v)]); try done.
  - intros l Hne. simpl. by rewrite fn_lookup_insert_ne.
  - intros b Hne. destruct Hne. by eapply flag_via.
  - intros l Hne. by repeat constructor.
  - unfold partakes. by rewrite Hp.
  - intros h Hh. left. by rewrite Hpc.
  - by rewrite Hpc.
  - intros j' p' r. rewrite Hp'. intros [= <- <- <-]. eauto.
  - eapply linv_ext; [apply (m_put _ a v HL Hra)|..]; simpl.
    + intros b. rewrite (role_only _ _ _ _ _ _ Ho), fn_ins. case_decide; [|done]. by erewrite role_own.
    + intros b t _. by eapply flag_via.
    + unfold at_load at 1; simpl. by rewrite fn_lookup_insert.
    + unfold waiting_on at 1; simpl. by rewrite fn_lookup_insert.
    + done.
    + done.
    + intros b. rewrite (ent_logs y y') by done. naive_solver.
    + intros b Hb. eapply (dis_logs y y'); [done|]. naive_solver.
    + intros v'. rewrite (put_logs y y') by done. naive_solver.
Qed.
(* a waiter is notified *)
Lemma step_note y a ag b t j p ws nm f x' ev : CInv y → y_agents y !! a = Some ag →
  match a_pc ag with
  | NGo j' p' (w :: ws') nm' => j' = j ∧ p' = p ∧ w = (b, t) ∧ ws' = ws ∧ nm' = nm
  | NTask j' p' b' ws' nm' => j' = j ∧ p' = p ∧ b' = b ∧ t = true ∧ ws' = ws ∧ nm' = nm
  | _ => False
  end →
  x' = NGo j p ws nm ∨ x' = NUnpark j p b ws nm →
  (∀ bg, a_pc (f bg) = a_pc bg) → (∀ bg, a_flag (f bg) = true) → (∀ l, quiet_ev l (a, ev)) → (∀ i, sec_of i (a, ev) = []) →
  CInv (goto (logged (with_agent y b f) a ev) a x').
Proof.
  intros HC Ha Hpc Hx Hf1 Hf2 Hq Hse.
  pose proof (po_shape _ _ (ci_pc _ _ _ _ _ HC _ _ Ha)) as Hsh.
  set (y' := goto (logged _ _ _) _ _).
  assert (only_pc y y' a x') as Ho.
  { eapply only_agents; [eapply only_goto; [done|]|]; [|done]. intros c. specialize (same_pcs_agent y y b f (same_pcs_refl y) Hf1 c). done. }
  assert (∀ r, role y (pl j p) b = r → r ≠ QNone → ∀ c, flag y' c = <[b := true]> (flag y) c) as Hfl.
  { intros r Hr Hn c. rewrite fn_ins. unfold y'. rewrite flag_goto. unfold flag; simpl. case_decide.
    - subst. rewrite list_lookup_alter. unfold role in Hn. destruct (y_agents y !! b); [|done]. simpl. apply Hf2.
    - by rewrite list_lookup_alter_ne. }
  assert ((∀ h, h ∈ holds a x' → h ∈ holds a (a_pc ag) ∨ excl y a h)) as Hh.
  { intros h Hh. left. destruct (a_pc ag); try done.
    - destruct ws0 as [|w ws0]; [done|]. destruct Hpc as (-> & -> & -> & -> & ->). by destruct Hx as [-> | ->].
    - destruct Hpc as (-> & -> & -> & -> & -> & ->). simpl. apply elem_of_app. left. by destruct Hx as [-> | ->]. }
  assert (∀ i, sections i [(a, ev)] = []) as Hse'. { intros i. unfold sections. simpl. by rewrite Hse. }
  assert (∀ l, Forall (quiet_ev l) [(a, ev)]) as Hqe by (intros l; by repeat constructor).
  assert (y_log y' = y_log y ++ [(a, ev)]) as Hlg by done.
  destruct nm as [rs v wl ref|].
  - assert (part_of (a_pc ag) = Some (j, p, QNote v ((b, t) :: ws))) as Hp.
    { destruct (a_pc ag); try done.
      - destruct ws0 as [|w ws0]; [done|]. by destruct Hpc as (-> & -> & -> & -> & ->).
      - by destruct Hpc as (-> & -> & -> & -> & -> & ->). }
    assert (part_of x' = Some (j, p, QNote v ws)) as Hp' by (by destruct Hx as [-> | ->]).
    destruct (part_linv _ _ _ _ _ _ HC Ha Hp) as [HL Hra].
    assert (role y (pl j p) b = QWait t) as Hrb.
    { destruct (l_pend _ HL a (b, t)) as [H _]; [unfold pend; simpl; rewrite Hra; by left|done]. }
    specialize (Hfl _ Hrb ltac:(done)).
    eapply (cinv_local y y' a ag x' j p [(a, ev)]); try done.
    + intros c Hne. right. rewrite Hfl, fn_ins in Hne. case_decide; [|done]. subst. by rewrite Hrb.
    + unfold partakes. by rewrite Hp.
    + unfold partakes. by rewrite Hp'.
    + intros i Hi. assert (pc_shards x' = [j]) as Hj by (by destruct Hx as [-> | ->]). rewrite Hj in Hi.
      destruct (a_pc ag) eqn:E; try done; simpl; simpl in Hp; rewrite ?Hp; try done.
    + by destruct Hx as [-> | ->].
    + intros j' p' r. rewrite Hp'. intros [= <- <- <-]. eauto.
    + by destruct Hx as [-> | ->].
    + eapply linv_ext; [apply (m_note _ a v b t ws HL Hra)|..]; simpl; try done.
      * intros c. rewrite (role_only _ _ _ _ _ _ Ho), fn_ins. case_decide; [|done]. by erewrite role_own.
      * intros c. by eapply ent_quiet.
      * intros c. by eapply dis_mono.
      * intros c. by eapply put_quiet.
  - assert (part_of (a_pc ag) = Some (j, p, QHand (b, t)) ∧ ws = []) as [Hp ->].
    { destruct (a_pc ag); try done.
      - destruct ws0 as [|w ws0]; [done|]. destruct Hpc as (-> & -> & -> & -> & ->). simpl in Hsh. split; [done|]. destruct ws; [done|simpl in Hsh; lia].
      - by destruct Hpc as (-> & -> & -> & -> & -> & ->). }
    assert (part_of x' = None) as Hp' by (by destruct Hx as [-> | ->]).
    destruct (part_linv _ _ _ _ _ _ HC Ha Hp) as [HL Hra].
    assert (role y (pl j p) b = QWait t) as Hrb.
    { destruct (l_pend _ HL a (b, t)) as [H _]; [unfold pend; simpl; rewrite Hra; by left|done]. }
    specialize (Hfl _ Hrb ltac:(done)).
    eapply (cinv_local y y' a ag x' j p [(a, ev)]); try done.
    + intros c Hne. right. rewrite Hfl, fn_ins in Hne. case_decide; [|done]. subst. by rewrite Hrb.
    + unfold partakes. by rewrite Hp.
    + unfold partakes. by rewrite Hp'.
    + intros i Hi. destruct Hx as [-> | ->]; by apply elem_of_nil in Hi.
    + destruct Hx as [-> | ->]; simpl; [lia|done].
    + intros j' p' r. by rewrite Hp'.
    + by destruct Hx as [-> | ->].
    + eapply linv_ext; [apply (m_hand _ a b t HL Hra)|..]; simpl; try done.
      * intros c. rewrite (role_only _ _ _ _ _ _ Ho), fn_ins. case_decide; [|done]. by rewrite role_none.
      * intros c. by eapply ent_quiet.
      * intros c. by eapply dis_mono.
      * intros c. by eapply put_quiet.
Qed.
(* the guard is dropped, and given to the last waiter *)
Lemma step_give y a ag j p w : CInv y → y_agents y !! a = Some ag → a_pc ag = DIn j p →
  list.last (waiting_on y (pl j p)) = Some w →
  at_load y (pl j p) = Loading ∧
  CInv (logged (goto (with_ph y (pl j p) (PSt (take (length (waiting_on y (pl j p)) - 1) (waiting_on y (pl j p))) (at_load y (pl j p))))
    a (NGo j p [w] NDrop)) a (EvGive (pl j p) w.1)).
Proof.
  intros HC Ha Hpc Hw. assert (part_of (a_pc ag) = Some (j, p, QGuard)) as Hp by (by rewrite Hpc).
  destruct (part_linv _ _ _ _ _ _ HC Ha Hp) as [HL Hra]. split; [by apply (guard_loading _ a HL)|].
  set (x' := NGo _ _ _ _). set (y' := logged _ _ _).
  assert (part_of x' = Some (j, p, QHand w)) as Hp' by done.
  assert (only_pc y y' a x') as Ho.
  { eapply only_agents; [eapply only_goto; [done|apply same_pcs_refl]|done]. }
  assert (waiting_on y (pl j p) = take (length (waiting_on y (pl j p)) - 1) (waiting_on y (pl j p)) ++ [w]) as Hws.
  { apply list.last_Some in Hw as [ws ->]. rewrite app_length. simpl. replace (length ws + 1 - 1) with (length ws) by lia. by rewrite take_app. }
  eapply (cinv_local y y' a ag x' j p [(a, EvGive (pl j p) w.1)]); try done.
  - intros l Hne. simpl. by rewrite fn_lookup_insert_ne.
  - intros b Hne. destruct Hne. by eapply flag_via.
  - intros l Hne. by repeat constructor.
  - unfold partakes. by rewrite Hp.
  - intros h Hh. left. by rewrite Hpc.
  - by rewrite Hpc.
  - simpl. lia.
  - intros j' p' r. rewrite Hp'. intros [= <- <- <-]. eauto.
  - eapply linv_ext; [apply (m_pop _ a w _ HL Hra Hws)|..]; simpl.
    + intros b. rewrite (role_only _ _ _ _ _ _ Ho), fn_ins. case_decide; [|done]. by erewrite role_own.
    + intros b t _. by eapply flag_via.
    + unfold at_load at 1; simpl. by rewrite fn_lookup_insert.
    + unfold waiting_on at 1; simpl. by rewrite fn_lookup_insert.
    + done.
    + done.
    + intros b. rewrite (ent_logs y y') by done. naive_solver.
    + intros b Hb. eapply (dis_logs y y'); [done|]. naive_solver.
    + intros v'. rewrite (put_logs y y') by done. naive_solver.
Qed.
End concstep2.
