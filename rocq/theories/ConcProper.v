(* Every event of every execution is proper when it happens. *)
From stdpp Require Import prelude list functions.
From Verif Require Export ConcLog.

Section concproper.
Context {P : Params} (LW : Lawful P) (PI : ptr_ids P = true).
Context {budget ghosts cap e : N}.
Notation K := (K P). Notation V := (V P). Notation RS := (RS P).
Notation shard := (shard P). Notation sys := (sys P). Notation pc := (pc P). Notation agent := (agent P).
Notation CInv := (CInv budget ghosts cap e). Notation Reach := (@Reach P (full P) budget ghosts cap e).
Implicit Types (s : shard) (k : K) (v : V) (rs : RS) (p : plh) (a b : nat) (l : loc) (j : nat) (y : sys) (x : pc) (ag : agent).
Implicit Types (c : call P) (h es : list (cevent P)) (g : list (nat * cevent P)).

Local Ltac inl H := repeat match type of H with
  | _ ∈ _ :: _ => apply elem_of_cons in H as [H|H]; [try (discriminate H)|]
  | _ ∈ [] => by apply elem_of_nil in H
  end.
Local Ltac evs Hin := match goal with
  | Hs : starts _ _ _ _ _ ?es |- _ => inl Hin; apply (starts_ev _ _ _ _ _ _ _ Hs) in Hin as (Hin & ? & ?); try discriminate Hin
  | _ => match type of Hin with _ ∈ guarded_ev _ _ _ => apply guarded_ev_in in Hin; try discriminate Hin | _ => inl Hin end
  end.

Record GInv y : Prop := {
  gi_end : ∀ l, ended (y_log y) l → at_load y l = Terminated;
  gi_proper : proper_log (y_log y);
}.

Lemma proper_nil : proper_log (P:=P) [].
Proof. intros g1 a ev g2 H. by destruct g1. Qed.
Lemma proper_snoc g a (ev : cevent P) : proper_log g → proper g a ev → proper_log (g ++ [(a, ev)]).
Proof.
  intros H1 H2 g1 b ev' g2 E. destruct g2 as [|z g2 _] using rev_ind.
  - apply app_inj_tail in E as [-> [= -> ->]]. done.
  - rewrite app_comm_cons, app_assoc in E. apply app_inj_tail in E as [-> _]. by eapply H1.
Qed.
Lemma proper_more g a es : proper_log g → (∀ e1 ev e2, es = e1 ++ ev :: e2 → proper (g ++ map (pair a) e1) a ev) →
  proper_log (g ++ map (pair a) es).
Proof.
  intros Hg. induction es as [|ev es IH] using rev_ind; intros H; [by rewrite app_nil_r|].
  rewrite map_app, app_assoc. apply proper_snoc; [|by eapply (H es ev [])]. apply IH. intros e1 ev' e2 ->. apply (H e1 ev' (e2 ++ [ev])).
  by rewrite <-app_assoc.
Qed.

(* the call of a returns: what holds afterwards *)
Lemma done_quiet y a ag r l : Reach y → y_agents y !! a = Some ag → a_pc ag = ADone r →
  role y l a = QNone ∧ (∀ b t, role y l b ≠ QHand (a, t)) ∧ ¬ in_charge (y_log y) l a.
Proof.
  intros HR Ha Hpc. pose proof (ci_load _ _ _ _ _ (rc_c _ HR) l) as HL.
  assert (role y l a = QNone) as Hr by (unfold role, role_pc; by rewrite Ha, Hpc).
  assert (∀ b t, role y l b ≠ QHand (a, t)) as Hh.
  { intros b t Hb. destruct (l_pend _ HL b (a, t)) as [H _]; [unfold pend; simpl; rewrite Hb; left|]. simpl in H. congruence. }
  split_and!; [done|done|]. rewrite in_charge_iff by done. intros [_ [H|(b & t & H)]]; [|by eapply Hh].
  unfold keeps in H. simpl in H. by rewrite Hr in H.
Qed.
Lemma ret_proper y y' a ag ag' r e1 : Reach y → Reach y' → y_agents y !! a = Some ag → y_agents y' !! a = Some ag' → a_pc ag' = ADone r →
  y_log y' = y_log y ++ map (pair a) (e1 ++ [EvRet r]) → forallb closing e1 = true →
  is_done (a_pc ag) = false → (∀ l v ws, role_pc l (a_pc ag) ≠ QNote v ws) →
  (∀ v l, r = RetVal v (Some l) → at_load y l = Inserted v ∧ ((a, EvWait l) ∈ y_log y → noted (y_log y) a)) →
  proper (y_log y ++ map (pair a) e1) a (EvRet r).
Proof.
  intros HR HR' Ha Ha' Hpc Hlog He1 Hnd Hnn Hval. rewrite map_app, app_assoc in Hlog. simpl in Hlog.
  set (g := y_log y ++ map (pair a) e1) in *.
  assert (forallb unheard e1 = true ∧ ∀ ev, ev ∈ e1 → closing ev = true) as [Hun Hcl].
  { rewrite !forallb_forall in He1 |- *. split; [|intros ev Hev; by apply He1, elem_of_list_In]. intros ev Hev. specialize (He1 _ Hev). by destruct ev. }
  assert (∀ b ev, (b, ev) ∈ g → (b, ev) ∈ y_log y ∨ closing ev = true) as Hold.
  { intros b ev Hin. apply elem_of_app in Hin as [?|Hin]; [by left|right]. apply elem_of_list_fmap in Hin as (ev' & [= -> <-] & Hin). by apply Hcl. }
  assert (∀ l, (role y' l a = QNone) ∧ ¬ in_charge g l a) as Hq.
  { intros l. destruct (done_quiet y' a ag' r l HR' Ha' Hpc) as (H1 & _ & H2). split; [done|]. intros H. apply H2. rewrite Hlog. by apply charge_more. }
  assert (∀ b, noted (y_log y') b → noted g b) as Hnote.
  { intros b [c H]. rewrite Hlog in H. apply elem_of_app in H as [H|H]; [by exists c|]. by apply elem_of_list_singleton in H. }
  split_and!.
  - intros l. apply Hq.
  - intros l b Hin. destruct (ni_give _ (rc_n _ HR') a l b) as [H|[t H]]; [rewrite Hlog; apply elem_of_app; by left|by apply Hnote|].
    destruct (Hq l) as [Hr _]. congruence.
  - intros l v b Hin Hw. apply waiting_more in Hw; [|done]. destruct (Hold _ _ Hin) as [Hin'|?]; [|done].
    destruct (put_hist _ _ _ _ _ l v (hi_agent _ (rc_h _ HR) _ _ Ha)) as [Hf|[ws Hf]]; [by apply hist_in|done| |by eapply Hnn].
    eapply (fill_alone y l a v v); [done| |done|done]. unfold role. by rewrite Ha.
  - pose proof (hi_agent _ (rc_h _ HR') _ _ Ha') as Hh. rewrite Hpc in Hh. destruct Hh as (h0 & Hlf & Hh).
    assert (hushed h0 = true → ∀ l, ¬ trusted g l a) as Hnt.
    { intros Hhu l Ht. destruct (Hq l) as [_ Hc]. apply Hc. split; [done|]. intros Hs. apply (settled_more _ a (EvRet r)) in Hs. rewrite <-Hlog in Hs.
      destruct Hs as [[v H]|[[b H]|H]]; (apply hist_in in H; [|done]); rewrite Hh in H; (apply elem_of_app in H as [H|H]; [by apply (hushed_in _ _ Hhu) in H|by apply elem_of_list_singleton in H]). }
    destruct r as [o|v [l|]| | |v|]; try done.
    + destruct (Hval v l eq_refl) as [Hld Hno]. pose proof (ci_load _ _ _ _ _ (rc_c _ HR) l) as HL. split.
      * destruct (l_ins _ HL v Hld) as (_ & [b Hb] & _). exists b. apply elem_of_app. by left.
      * intros Hin. destruct (Hold _ _ Hin) as [Hin'|?]; [|done]. destruct (Hno Hin') as [b Hb]. exists b. apply elem_of_app. by left.
    + split.
      * intros [b Hb]. eapply (np_late _ _ _ _ (ni_note _ (rc_n _ HR') _ _ Ha')); [done|]. exists b. rewrite Hlog. apply elem_of_app. by left.
      * apply Hnt. inversion Hlf; by subst.
    + apply Hnt. inversion Hlf; by subst.
Qed.

(* ---- the sections that start and find loads ---- *)
Lemma legal_at y j : Reach y → j < length (sc_shards (y_cache y)) → ∃ s d, shard_at y j = Some s ∧ legal cap budget (sections j (y_log y)) d ∧ same_st d (abs s).
Proof.
  intros HR Hj. apply lookup_lt_is_Some in Hj as [s Hs]. destruct (ci_legal _ _ _ _ _ (rc_c _ HR) j s Hs) as (d & H1 & H2). by exists s, d.
Qed.
Lemma sections_one j a (ev : cevent P) g : sections j (g ++ [(a, ev)]) = sections j g ++ sec_of j (a, ev).
Proof. rewrite sections_app. unfold sections at 2. simpl. by rewrite app_nil_r. Qed.
(* the state of the shard before the last section *)
Lemma last_section y y' a j o r es : Reach y → Reach y' → j < length (sc_shards (y_cache y')) →
  y_log y' = y_log y ++ map (pair a) (EvSec j o r :: es) → forallb (λ ev : cevent P, match ev with EvSec _ _ _ => false | _ => true end) es = true →
  ∃ d d', legal cap budget (sections j (y_log y)) d ∧ sdoes cap budget d o r d'.
Proof.
  intros HR HR' Hj Hlog Hes. destruct (legal_at y' j HR' Hj) as (s & d' & _ & HL & _). rewrite Hlog, sections_app in HL.
  assert (sections j (map (pair a) (EvSec j o r :: es)) = [(o, r)]) as Hsec.
  { simpl. change (_ :: map _ _) with ([(a, EvSec j o r)] ++ map (pair a) es). rewrite sections_app. unfold sections at 1. simpl. unfold sec_of. simpl. rewrite decide_True by done. simpl. f_equal.
    clear -Hes. induction es as [|ev es IH]; [done|]. simpl in Hes. apply andb_true_iff in Hes as [H1 H2]. unfold sections in *. simpl. rewrite IH by done. by destruct ev. }
  rewrite Hsec in HL. apply legal_inv in HL as (d & H1 & H2). eauto.
Qed.
Lemma new_fresh y d j k id d' : Reach y → legal cap budget (sections j (y_log y)) d → sdoes cap budget d (OJoin k) (SNew id) d' →
  ∀ b ev, (b, ev) ∈ y_log y → about ev ≠ Some (j, id).
Proof.
  intros HR HL Hs b ev Hin Hab. pose proof (known_joined y b ev j id (rc_h _ HR) Hin Hab) as Hj. apply joined_sections in Hj as [k' Hj].
  destruct (sdoes_next_id _ _ _ _ Hs) as [H _]. destruct (H k id eq_refl) as (Hid & _).
  pose proof (legal_known _ _ HL id k' ltac:(tauto)). lia.
Qed.
Lemma wait_started y d j k id d' : Reach y → GInv y → j < length (sc_shards (y_cache y)) →
  legal cap budget (sections j (y_log y)) d → sdoes cap budget d (OJoin k) (SWait id) d' → started (y_log y) (j, id) ∧ ¬ ended (y_log y) (j, id).
Proof.
  intros HR HG Hj HL Hs. destruct d as [c pd n], d' as [c' pd' n']. destruct Hs as (_ & (k' & Hk & _) & _).
  pose proof (proj1 (legal_pending _ _ HL id k') Hk) as Hp. split.
  - destruct Hp as (h1 & h2 & Hh & _). assert ((OJoin k', SNew id) ∈ sections j (y_log y)) as Hin by (rewrite Hh; apply elem_of_app; right; left).
    apply in_sections in Hin as [b Hb]. by exists b, k'.
  - intros He. apply (gi_end _ HG) in He. destruct (legal_at y j HR Hj) as (s & d0 & Hs0 & HL0 & (_ & Hpd & _)).
    apply (legal_pending _ _ HL0 id k') in Hp. rewrite Hpd in Hp.
    destruct (l_term _ (ci_load _ _ _ _ _ (rc_c _ HR) (j, id)) He) as (_ & Hm & _). apply Hm. simpl. unfold pend_at. simpl. rewrite Hs0.
    unfold abs in Hp. simpl in Hp. by rewrite Hp.
Qed.

Lemma proper_go dbg y y' a ag x' es us : Reach y → GInv y → Reach y' → y_agents y !! a = Some ag → mv dbg y a ag (a_pc ag) x' es us →
  moved y y' a x' es us → ∀ e1 ev e2, es = e1 ++ ev :: e2 → proper (y_log y ++ map (pair a) e1) a ev.
Proof.
  intros HR HG HR' Ha M Hm e1 ev e2 Hes.
  pose proof (hi_agent _ (rc_h _ HR) _ _ Ha) as Hh. pose proof (ci_pc _ _ _ _ _ (rc_c _ HR) _ _ Ha) as Hpo.
  pose proof (ni_note _ (rc_n _ HR) _ _ Ha) as Hnp.
  assert (∀ j, j ∈ pc_shards (a_pc ag) → j < length (sc_shards (y_cache y))) as Hlen by (apply Forall_forall, (po_shards _ _ Hpo)).
  pose proof (md_len _ _ _ _ _ _ Hm) as Hlen'.
  pose proof (λ j p, role_of y a ag j p QGuard Ha) as Hgu.
  pose proof (md_lookup _ _ _ _ _ _ a Hm) as Ha'. rewrite Ha in Ha'. simpl in Ha'. rewrite decide_True in Ha' by done.
  assert ((∃ r, ev = EvRet r) ∨ ∀ r, ev ≠ EvRet r) as [[r ->]|Hnr] by (destruct ev; eauto).
  { (* the call returns *)
    assert (EvRet r ∈ es) as Hin by (rewrite Hes; apply elem_of_app; right; left).
    destruct (mv_ret _ _ _ _ _ _ _ _ _ M Hin) as (e0 & He0 & Hx' & Hcl & Hnn).
    assert (e1 = e0 ∧ e2 = []) as [-> ->].
    { rewrite Hes in He0. destruct e2 as [|z e2 _] using rev_ind; [by apply app_inj_tail in He0 as [-> _]|].
      rewrite app_comm_cons, app_assoc in He0. apply app_inj_tail in He0 as [He0 _]. subst e0. rewrite forallb_forall in Hcl.
      specialize (Hcl (EvRet r)). simpl in Hcl. exfalso. assert (false = true); [|done]. apply Hcl. apply in_or_app. right. by left. }
    eapply (ret_proper y y' a ag (set_apc x' (eff_on a us ag))); try done.
    - by rewrite (md_log _ _ _ _ _ _ Hm), Hes.
    - destruct (a_pc ag) eqn:Epc; try done. inversion M; subst; try done.
    - intros v l ->. clear Hlen Hlen' Hgu Hpo Ha' Hnn Hm. remember (a_pc ag) as x0 eqn:Epc. destruct M; try (by rewrite Hx' in *); try discriminate Hx'; try (injection Hx' as -> <-).
      all: try (by destruct H as [-> | ->]).
      + by apply elem_of_nil in Hin.
      + by destruct c; simplify_eq.
      + by destruct sm.
      + by destruct md as [[]|].
      + split; [done|]. intros Hw. apply hist_in in Hw; [|done]. by apply (hpc_push _ _ _ _ _ _ _ _ Hh) in Hw.
      + by destruct H0.
      + split; [done|]. intros Hw. apply (np_past _ _ _ _ Hnp); [done|done|]. by eexists.
      + by destruct H1. }
  remember (a_pc ag) as x eqn:Epc.
  pose proof (po_shape _ _ Hpo) as Hsh.
  destruct M as
    [x w Hw Hf|j m o|m|m j js|j k gc i v x0 Hx0|j k gc|j i v gc|j v gc r Hr|j k|j k to|j k wk
    |j k md v|j k md p x0 es0 Hs|j k md p|j p sm|j p md Hl|j p md v Hl|j p to|j p tm Ht|j p tm Hfl|j p Hfl
    |j p st to d Hfl|j p st to Hlt|j p st to Hle|j p Hfl|j p Hfl Hin|j p x0 es0 Hl Hs|j p v Hl|j p wk Hfl|j p wk Hfl
    |j p x0 es0 Hfl Hl Hs|j p Hfl Hl|j p Hfl Hin|j p rs v wl ws ref Hws|j p rs v wl ref|j p|j p b ws nm|j p b ws nm|j p b ws nm
    |j p rs v wl ref o|j p rs v wl ref|j p w Hl Hld|j p Hl];
    try (by destruct e1);
    try (destruct e1 as [|z e1]; [injection Hes as <- <-|destruct e1; [injection Hes as <- <- <-|by destruct e1]]; try (exfalso; by eapply Hnr); simpl; rewrite app_nil_r; try done);
    try (destruct e1 as [|z e1]; [injection Hes as <- <-|by destruct e1]; try (exfalso; by eapply Hnr); simpl; rewrite app_nil_r; try done).
  - (* PIn *) destruct e1 as [|z e1]; [by injection Hes as <- <-|]. destruct e1; [|by destruct e1]. injection Hes as <- <- <-. by edestruct Hnr.
  - (* PAllIn *) destruct e1 as [|z e1]; [by injection Hes as <- <-|by destruct e1].
  - (* GIn *) destruct e1 as [|z e1]; [by injection Hes as <- <-|by destruct e1].
  - destruct e1 as [|z e1]; [by injection Hes as <- <-|by destruct e1].
  - (* JIn, hit *) destruct e1 as [|z e1]; [by injection Hes as <- <-|]. destruct e1; [|by destruct e1]. injection Hes as <- <- <-. by edestruct Hnr.
  - (* JIn, new *)
    assert (j < length (sc_shards (y_cache y'))) as Hj by (rewrite Hlen'; apply Hlen; left).
    assert (forallb (λ ev : cevent P, match ev with EvSec _ _ _ => false | _ => true end) es0 = true) as Hes0 by (by destruct Hs).
    destruct (last_section y y' a j _ _ _ HR HR' Hj (md_log _ _ _ _ _ _ Hm) Hes0) as (d & d' & HL & Hd).
    pose proof (new_fresh y d j k (ph_id p) d' HR HL Hd) as Hfr.
    destruct e1 as [|z e1]; [injection Hes as <- <-; simpl; by rewrite app_nil_r|]. injection Hes as <- Hes.
    destruct (starts_ev _ _ _ _ _ _ ev Hs) as (-> & _); [rewrite Hes; apply elem_of_app; right; left|].
    assert (e1 = []) as ->. { destruct Hs as [|]; [by destruct e1|]. by destruct e1; [|destruct e1]. }
    simpl. split; [left; exists k; apply elem_of_app; right; left|].
    intros [[v H]|[[b H]|H]]; (apply elem_of_app in H as [H|H]; [|by apply elem_of_list_singleton in H]); by apply Hfr in H.
  - (* JIn, wait *)
    assert (j < length (sc_shards (y_cache y))) as Hj0 by (apply Hlen; left).
    assert (j < length (sc_shards (y_cache y'))) as Hj by (by rewrite Hlen').
    destruct (last_section y y' a j _ _ _ HR HR' Hj (md_log _ _ _ _ _ _ Hm) ltac:(done)) as (d & d' & HL & Hd). by eapply wait_started.
  - (* SIn *) destruct sm; simpl in Hes; try (by destruct e1); (destruct e1 as [|z e1]; [injection Hes as <- <-|by destruct e1]); simpl; rewrite app_nil_r; apply (guard_charge _ _ _ HR), Hgu; done.
  - (* push *) split; [intros He; apply (gi_end _ HG) in He; congruence|]. apply (loading_charge _ _ HR); [done|]. exists a.
    rewrite (role_of y a ag j p QPush Ha); [done|by rewrite <-Epc].
  - (* JReIn *) destruct (starts_ev _ _ _ _ _ _ ev Hs) as (-> & _); [rewrite Hes; apply elem_of_app; right; left|].
    assert (e1 = []) as ->. { destruct Hs as [|]; [by destruct e1|]. by destruct e1; [|destruct e1]. }
    simpl. rewrite app_nil_r. apply (in_charge_iff _ _ _ HR). split; [done|]. left. unfold keeps. simpl. rewrite (role_of y a ag j p QWoke Ha); [done|by rewrite <-Epc].
  - (* FDropIn *) destruct (starts_ev _ _ _ _ _ _ ev Hs) as (_ & H & _); [rewrite Hes; apply elem_of_app; right; left|done].
  - (* put *) pose proof (Hgu j p eq_refl) as Hr. split; [by apply (guard_charge _ _ _ HR)|]. intros b v0 Hin.
    pose proof (guard_loading _ _ _ HR Hr) as Hl. assert (at_load y (pl j p) = Inserted v0); [|congruence].
    apply (l_put _ (ci_load _ _ _ _ _ (rc_c _ HR) (pl j p))). by exists b.
  - (* note *) exists (pl j p).
    assert ((b, false) ∈ pend (lview y (pl j p)) a) as Hp.
    { unfold pend. simpl. unfold role, role_pc. rewrite Ha, <-Epc. simpl. destruct nm; rewrite decide_True by done; left. }
    destruct (l_pend _ (ci_load _ _ _ _ _ (rc_c _ HR) (pl j p)) _ _ Hp) as [H1 H2]. split; [apply (waiting_iff _ _ _ HR); by exists false|].
    destruct nm as [rs v wl ref|]; simpl in Hh.
    + right. exists v. apply hist_in; [done|]. destruct Hh as (k & h0 & _ & _ & _ & ->). apply elem_of_app. right. left.
    + left. apply hist_in; [done|]. destruct Hh as (k & h0 & b0 & _ & _ & _ & -> & HF). apply Forall_cons in HF as [<- _]. apply elem_of_app. right. left.
  - (* wake *) exists (pl j p).
    assert ((b, true) ∈ pend (lview y (pl j p)) a) as Hp.
    { unfold pend. simpl. unfold role, role_pc. rewrite Ha, <-Epc. simpl. destruct nm; rewrite decide_True by done; left. }
    destruct (l_pend _ (ci_load _ _ _ _ _ (rc_c _ HR) (pl j p)) _ _ Hp) as [H1 H2]. split; [apply (waiting_iff _ _ _ HR); by exists true|].
    destruct nm as [rs v wl ref|]; simpl in Hh.
    + right. exists v. apply hist_in; [done|]. destruct Hh as (k & h0 & _ & _ & _ & ->). apply elem_of_app. right. left.
    + left. apply hist_in; [done|]. destruct Hh as (k & h0 & _ & _ & _ & -> & _). apply elem_of_app. right. left.
  - (* fill *) assert ((a, EvPut (j, ph_id p) v) ∈ y_log y) as Hp.
    { apply hist_in; [done|]. destruct Hh as (k & h0 & _ & _ & _ & ->). apply elem_of_app. right. left. }
    split; [done|]. eapply (fill_alone y (j, ph_id p) a v v); [done| |done]. eapply (role_of y a ag j p); [done|by rewrite <-Epc].
  - assert ((a, EvPut (j, ph_id p) v) ∈ y_log y) as Hp.
    { apply hist_in; [done|]. destruct Hh as (k & h0 & _ & _ & _ & ->). apply elem_of_app. right. left. }
    split; [done|]. eapply (fill_alone y (j, ph_id p) a v v); [done| |done]. eapply (role_of y a ag j p); [done|by rewrite <-Epc].
  - (* give *) pose proof (Hgu j p eq_refl) as Hr. pose proof (ci_load _ _ _ _ _ (rc_c _ HR) (pl j p)) as HL.
    assert (w ∈ waiting_on y (pl j p)) as Hin. { apply last_Some in Hl as (ws & ->). apply elem_of_app. right. left. }
    destruct (l_wait _ HL w Hin) as [H1 H2]. simpl in H1, H2. split_and!; [by apply (guard_charge _ _ _ HR)|apply (waiting_iff _ _ _ HR); by exists w.2|].
    intros Ht. destruct (l_ent _ HL w.1 Ht) as [H|(_ & [H|(c & t & H)])].
    + eapply (calm_settled y (pl j p) w.1); [done|by rewrite H1|exact H].
    + unfold keeps in H. simpl in H. rewrite H1 in H. congruence.
    + simpl in H. assert (c = a) as ->; [|congruence]. apply (l_one _ HL Hld); unfold owns; simpl; [by rewrite H|by rewrite Hr].
  - (* end *) pose proof (Hgu j p eq_refl) as Hr. pose proof (guard_charge _ _ _ HR Hr) as Hc. pose proof (guard_alone _ _ _ HR Hr Hl) as Hal.
    destruct e1 as [|z e1]; [injection Hes as <- <-; simpl; rewrite app_nil_r; by split|]. injection Hes as <- Hes.
    destruct e1 as [|z e1].
    + injection Hes as <- <-. simpl. split; [by apply charge_more|]. intros b Hb. apply (Hal b).
      by apply (waiting_more _ a [EvSec j (ODrop (ph_id p)) SGone]) in Hb.
    + injection Hes as <- Hes. destruct e1; [|by destruct e1]. injection Hes as <- <-. by edestruct Hnr.
Qed.
Lemma ginv_step dbg y lb y' : Reach y → GInv y → cstep dbg y lb = Some (Ok y') → GInv y'.
Proof.
  intros HR HG Hs. pose proof (reach_step LW PI _ _ _ _ HR Hs) as HR'.
  pose proof (cstep_stepped LW PI _ _ _ _ (rc_c _ HR) Hs) as Hst.
  assert (∀ a ag x' es us, y_agents y !! a = Some ag → moved y y' a x' es us → 
    (∀ l v, EvPut l v ∈ es → role y l a = QGuard) → (∀ l, EvEnd l ∈ es → at_load y' l = Terminated) → ∀ l, ended (y_log y') l → at_load y' l = Terminated) as Hend.
  { intros a ag x' es us Ha Hm Hp He l [b Hb]. rewrite (md_log _ _ _ _ _ _ Hm) in Hb. apply elem_of_app in Hb as [Hb|Hb].
    - assert (at_load y l = Terminated) as Hl by (apply (gi_end _ HG); by exists b).
      destruct (md_load _ _ _ _ _ _ Hm l) as [->|[(v & Hin & _)|[_ ->]]]; [done| |done].
      apply Hp in Hin. apply (guard_loading _ _ _ HR) in Hin. congruence.
    - apply elem_of_list_fmap in Hb as (ev & [= -> <-] & Hb). by apply He. }
  destruct Hst as [a ag x' es us Ha M Hm|lb a ag x' es Ha M Hm|c x Hf ->|d ->].
  - split.
    + eapply Hend; [done|done| |].
      * intros l v Hin. pose proof (λ j p, role_of y a ag j p QGuard Ha) as Hgu. clear -M Hin Hgu. remember (a_pc ag) as x. destruct M; try by evs Hin.
        inl Hin. injection Hin as -> ->. by apply Hgu.
      * apply (md_over _ _ _ _ _ _ Hm).
    + rewrite (md_log _ _ _ _ _ _ Hm). apply proper_more; [apply HG|]. by eapply proper_go.
  - split.
    + eapply Hend; [done|done| |apply (md_over _ _ _ _ _ _ Hm)]. intros l v Hin. by apply (ext_events _ _ _ _ _ _ _ M) in Hin.
    + rewrite (md_log _ _ _ _ _ _ Hm). apply proper_more; [apply HG|]. intros e1 ev e2 Hes.
      assert (ev = EvRet RetCancel) as -> by (eapply ext_events; [exact M|]; rewrite Hes; apply elem_of_app; right; left).
      assert (∃ j k, a_pc ag = FNew j k ∧ x' = ADone RetCancel ∧ e1 = [] ∧ e2 = []) as (j & k & Hpc & -> & -> & ->).
      { clear -M Hes. remember (a_pc ag) as x. destruct M; try by destruct e1. destruct e1 as [|z e1]; [injection Hes as <-|by destruct e1]. by exists j, k. }
      pose proof (md_lookup _ _ _ _ _ _ a Hm) as Ha'. rewrite Ha in Ha'. simpl in Ha'. rewrite decide_True in Ha' by done.
      eapply (ret_proper y y' a ag _ RetCancel []); [done|done|done|exact Ha'|done| |done|by rewrite Hpc| |done].
      * by rewrite (md_log _ _ _ _ _ _ Hm), Hes.
      * intros l v ws. unfold role_pc. by rewrite Hpc.
  - split.
    + intros l [b Hb]. simpl in Hb. apply elem_of_app in Hb as [Hb|Hb]; [|by apply elem_of_list_singleton in Hb].
      change (at_load y l = Terminated). apply (gi_end _ HG). by exists b.
    + simpl. apply proper_snoc; [apply HG|]. intros ev Hin. apply (hi_log _ (rc_h _ HR)) in Hin. lia.
  - split; apply HG.
Qed.
Lemma ginv dbg ls y : execution dbg budget ghosts cap e ls y → Reach y ∧ GInv y.
Proof.
  unfold execution. intros H. remember (sys_new budget ghosts cap e) as y0. induction H as [|y0 ls y1 lb y2 H IH Hs].
  - subst. split; [apply reach_new|]. split; [|apply proper_nil]. intros l [b Hb]. by apply elem_of_nil in Hb.
  - subst y0. destruct (IH eq_refl) as [HR HG]. split; [by eapply reach_step|by eapply ginv_step].
Qed.
End concproper.
