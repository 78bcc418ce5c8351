(* Notifications: the flags, tokens and wakers of the agents agree with who was notified. *)
From stdpp Require Import prelude list functions.
From Verif Require Export ConcHist.

Section concnote.
Context {P : Params} (LW : Lawful P) (PI : ptr_ids P = true) {LG : Ledger P}.
Context {budget ghosts cap e : N}.
Notation K := (K P). Notation V := (V P). Notation RS := (RS P).
Notation shard := (shard P). Notation sys := (sys P). Notation pc := (pc P). Notation agent := (agent P).
Notation CInv := (CInv budget ghosts cap e).
Implicit Types (s : shard) (k : K) (v : V) (rs : RS) (p : plh) (a b : nat) (l : loc) (j : nat) (y : sys) (x : pc) (ag : agent).
Implicit Types (c : call P) (h es : list (cevent P)) (g : list (nat * cevent P)).

Definition queues g a : Prop := ∃ l, (a, EvWait l) ∈ g.
Definition is_wait x : bool := match part_of x with Some (_, _, QWait _) => true | _ => false end.
Definition is_done x : bool := match x with ADone _ => true | _ => false end.

Record npc x (f : bool) (w nt : Prop) : Prop := {
  np_queued : nt → w;
  np_flag : is_wait x = true → (f = true ↔ nt);
  np_past : is_wait x = false → is_done x = false → w → nt;
  np_late : x = ADone RetTimeout → ¬ nt;
}.
(* a thread about to park was not notified, or will find the token; [u]: it will be unparked *)
Definition tpc x (f tok : bool) (u : Prop) : Prop :=
  match x with JStart _ _ _ | JPark _ _ _ | JElapsed _ _ _ _ => f = true → tok = true ∨ u | _ => True end.
(* an idle future that was notified was woken with its last waker *)
Definition wpc x (f : bool) (wk : N) (woken : option N) : Prop :=
  match x with FIdle _ _ wk' => wk = wk' ∧ (f = true → woken = Some wk') | _ => True end.
Definition unparks y b : Prop := ∃ a ag j p ws nm, y_agents y !! a = Some ag ∧ a_pc ag = NUnpark j p b ws nm.
Record NInv y : Prop := {
  ni_note : ∀ a ag, y_agents y !! a = Some ag → npc (a_pc ag) (a_flag ag) (queues (y_log y) a) (noted (y_log y) a);
  ni_give : ∀ a l b, (a, EvGive l b) ∈ y_log y → noted (y_log y) b ∨ ∃ t, role y l a = QHand (b, t);
  ni_token : ∀ a ag, y_agents y !! a = Some ag → tpc (a_pc ag) (a_flag ag) (a_token ag) (unparks y a);
  ni_known : ∀ b, noted (y_log y) b → b < length (y_agents y);
  ni_waker : ∀ a ag, y_agents y !! a = Some ag → wpc (a_pc ag) (a_flag ag) (a_waker ag) (a_woken ag);
}.

Lemma npc_iff x f (w w' nt nt' : Prop) : npc x f w nt → (w ↔ w') → (nt ↔ nt') → npc x f w' nt'.
Proof.
  intros [A B C D] Hw Hn. split.
  - rewrite <-Hw, <-Hn. done.
  - rewrite <-Hn. done.
  - rewrite <-Hn, <-Hw. done.
  - rewrite <-Hn. done.
Qed.

(* ---- what a step does to the flags ---- *)
Definition flag_eff (u : eff) : bool := match u with UFlag _ | UWoke => true | _ => false end.
Lemma eff_flag_none b us ag : (∀ u, (b, u) ∈ us → flag_eff u = false) → a_flag (eff_on b us ag) = a_flag ag.
Proof.
  revert ag. induction us as [|[c u] us IH]; intros ag H; [done|]. unfold eff_on in *. simpl. rewrite IH; [|intros u' Hu; apply H; by right].
  case_decide; [|done]. subst c. specialize (H u ltac:(left)). by destruct u.
Qed.
Lemma eff_none b us ag : (∀ u, (b, u) ∉ us) → eff_on b us ag = ag.
Proof.
  revert ag. induction us as [|[c u] us IH]; intros ag H; [done|]. unfold eff_on in *. simpl. rewrite IH; [|intros u' Hu; apply (H u'); by right].
  case_decide; [|done]. subst c. destruct (H u). left.
Qed.

Lemma starts_ev dbg sm j p x' es ev : starts dbg sm j p x' es → ev ∈ es → ev = EvGuard (pl j p) ∧ sm ≠ SDropFut ∧ x' = AGuard j p.
Proof.
  intros [Hd|Hd] Hin; [by apply elem_of_nil in Hin|]. destruct sm; simpl in Hin; [| |by apply elem_of_nil in Hin].
  all: apply elem_of_list_singleton in Hin; by subst.
Qed.
Lemma guarded_ev_in sm j p ev : ev ∈ @guarded_ev P sm j p → ev = EvGuard (pl j p).
Proof. destruct sm; simpl; [| |by intros ?%elem_of_nil]; by intros ?%elem_of_list_singleton. Qed.
Ltac inl H := repeat match type of H with
  | _ ∈ _ :: _ => apply elem_of_cons in H as [H|H]; [try (discriminate H)|]
  | _ ∈ [] => by apply elem_of_nil in H
  end.
Ltac evs Hin := match goal with
  | Hs : starts _ _ _ _ _ ?es |- _ => inl Hin; apply (starts_ev _ _ _ _ _ _ _ Hs) in Hin as (Hin & ? & ?); try discriminate Hin
  | _ => match type of Hin with _ ∈ guarded_ev _ _ _ => apply guarded_ev_in in Hin; try discriminate Hin | _ => inl Hin end
  end.

(* an agent is notified by a step that has it on its list *)
Lemma mv_notes dbg y a ag x x' es us b : mv dbg y a ag x x' es us → EvNote b ∈ es → pc_shape x →
  ∃ l t, (b, t) ∈ pend_r (role_pc l x) ∧ es = [EvNote b] ∧
    ((∃ j p ws nm, t = false ∧ x' = NUnpark j p b ws nm ∧ us = [(b, UFlag true)]) ∨ (t = true ∧ us = [(b, UWoke)])).
Proof.
  intros M Hin Hsh. destruct M; try by evs Hin.
  - (* note *) inl Hin. injection Hin as <-. exists (pl j p), false. split_and!; [|done|left; by eexists _, _, _, _].
    unfold role_pc. destruct nm; simpl; rewrite decide_True by done; left.
  - (* wake *) inl Hin. injection Hin as <-. exists (pl j p), true. split_and!; [|done|by right].
    unfold role_pc. destruct nm; simpl; rewrite decide_True by done; left.
Qed.
Lemma mv_waits dbg y a ag x x' es us l : mv dbg y a ag x x' es us → EvWait l ∈ es →
  ∃ j p md, x = JPushIn j p md ∧ l = pl j p ∧ x' = waiting_pc j p md ∧ us = waiting_us a md ∧ es = [EvWait l] ∧ at_load y l = Loading.
Proof.
  intros M Hin. destruct M; try by evs Hin. inl Hin. injection Hin as ->. by exists j, p, md.
Qed.
Lemma entered_wait a x (h : lock * lmode) : wants a x = Some h → is_wait (entered x) = is_wait x ∧ is_done (entered x) = false ∧ is_done x = false.
Proof. intros H. unfold is_wait. rewrite (entered_part _ _ _ H). split; [done|]. destruct x; try done; [by destruct js|by destruct ws as [|[? []] ?]]. Qed.
Lemma starts_wait dbg sm j p x' es : starts dbg sm j p x' es → is_wait x' = false ∧ is_done x' = false.
Proof. intros [|]; by destruct sm. Qed.
Lemma npc_go x x' f f' w nt : npc x f w nt → is_done x = false → is_done x' = false →
  (is_wait x = false ∧ is_wait x' = false) ∨ (is_wait x' = is_wait x ∧ f' = f) ∨ (is_wait x = true ∧ f = true ∧ is_wait x' = false) →
  npc x' f' w nt.
Proof.
  intros [A B C D] Hd Hd' Hc. split; [done| | |by intros ->].
  - intros Hw. destruct Hc as [[? ?]|[[? ->]|(? & ? & ?)]]; [congruence| |congruence]. apply B. congruence.
  - intros Hw _ Hq. destruct Hc as [[? ?]|[[? ->]|(? & Hf & ?)]]; [by apply C|apply C; congruence|]. by apply B.
Qed.
Lemma npc_done x f f' w nt r : npc x f w nt → r ≠ RetTimeout → npc (ADone r) f' w nt.
Proof. intros [A B C D] Hr. split; [done..|]. by intros [= ->]. Qed.
Lemma npc_mv dbg y a ag x x' es us w nt : mv dbg y a ag x x' es us → npc x (a_flag ag) w nt →
  (∀ l, EvWait l ∉ es) → (∀ b, EvNote b ∈ es → b ≠ a) → npc x' (a_flag (eff_on a us ag)) w nt.
Proof.
  intros M Hn Hw Hb. destruct M; try (by eapply npc_done); try (eapply npc_go; [exact Hn|done|done|by auto]).
  - destruct (entered_wait _ _ _ H) as (H1 & H2 & H3). eapply npc_go; [exact Hn|done|done|by auto].
  - eapply npc_go; [exact Hn|done| |left]; by destruct H as [-> | ->].
  - eapply npc_done; [exact Hn|]. subst r. by destruct c.
  - destruct (starts_wait _ _ _ _ _ _ H). eapply npc_go; [exact Hn|done|done|by left].
  - eapply npc_go; [exact Hn|done| |left]; by destruct sm.
  - destruct (Hw (pl j p)). left.
  - eapply npc_go; [exact Hn|done|done|right; left]. split; [done|]. apply eff_flag_none. intros u Hu%elem_of_list_singleton. by injection Hu as ->.
  - destruct Hn as [A B C D]. split; [done..|]. intros _ Hnt. apply B in Hnt; [congruence|done].
  - destruct (starts_wait _ _ _ _ _ _ H0). eapply npc_go; [exact Hn|done|done|by left].
  - eapply npc_go; [exact Hn|done|done|right; left]. split; [done|]. apply eff_flag_none. intros u Hu%elem_of_list_singleton. by injection Hu as ->.
  - destruct (starts_wait _ _ _ _ _ _ H1). eapply npc_go; [exact Hn|done|done|right; right; by split_and!].
  - eapply npc_go; [exact Hn|done|done|left]. by destruct nm.
  - eapply npc_go; [exact Hn|done|done|left]. by destruct nm, ws.
  - eapply npc_go; [exact Hn|done|done|left]. by destruct nm, ws.
Qed.
Lemma npc_push x f (w nt : Prop) j p md : npc x f w nt → ¬ w → npc (waiting_pc j p md) false True nt.
Proof.
  intros [A B C D] Hw. assert (¬ nt) as Hnt by (intros ?; auto). split; [done| | |].
  - intros _. by split.
  - by destruct md as [[]|].
  - by destruct md as [[]|].
Qed.
Lemma push_flag a md ag : a_flag (eff_on a (waiting_us a md) ag) = false.
Proof. unfold eff_on. destruct md; simpl; rewrite !decide_True by done; done. Qed.

(* what a step does to the other agents *)
Lemma mv_others dbg y a ag x x' es us b u : mv dbg y a ag x x' es us → (b, u) ∈ us → b ≠ a →
  us = [(b, u)] ∧ ((u = UFlag true ∧ EvNote b ∈ es) ∨ (u = UToken true ∧ ∃ j p ws nm, x = NUnpark j p b ws nm) ∨ (u = UWoke ∧ EvNote b ∈ es)).
Proof.
  intros M Hin Hne. destruct M; try (by inl Hin; congruence).
  - unfold waiting_us in Hin. apply elem_of_cons in Hin as [Hin|Hin]; [congruence|]. destruct md; inl Hin; congruence.
  - inl Hin. injection Hin as -> ->. split; [done|]. left. split; [done|left].
  - inl Hin. injection Hin as -> ->. split; [done|]. right; left. split; [done|]. eauto.
  - inl Hin. injection Hin as -> ->. split; [done|]. right; right. split; [done|left].
Qed.
Lemma eff_one b u ag : eff_on b [(b, u)] ag = apply_eff u ag.
Proof. unfold eff_on. simpl. by rewrite decide_True. Qed.
Lemma mv_hand dbg y a ag x x' es us l b t : mv dbg y a ag x x' es us → pc_shape x → role_pc l x = QHand (b, t) →
  EvNote b ∈ es ∨ role_pc l x' = QHand (b, t).
Proof.
  intros M Hsh Hr. unfold role_pc in *. destruct M; simpl in *; try (by case_decide); try done.
  - right. by rewrite (entered_part _ _ _ H).
  - destruct nm; simpl in Hr; case_decide; try done. left. injection Hr as -> <-. left.
  - by destruct nm; simpl in Hr; try case_decide.
  - destruct nm; simpl in Hr; case_decide; try done. left. injection Hr as ->. left.
Qed.
Lemma mv_gives dbg y a ag x x' es us l b : mv dbg y a ag x x' es us → EvGive l b ∈ es → ∃ t, role_pc l x' = QHand (b, t).
Proof.
  intros M Hin. destruct M; try by evs Hin. inl Hin. injection Hin as -> ->. exists w.2. unfold role_pc. simpl. rewrite decide_True by done. by destruct w.
Qed.
Lemma is_wait_role y b bg l t : y_agents y !! b = Some bg → role y l b = QWait t → is_wait (a_pc bg) = true ∧ ∃ j p, part_of (a_pc bg) = Some (j, p, QWait t) ∧ l = pl j p.
Proof.
  intros Hb. rewrite (role_at _ _ _ _ Hb). unfold role_pc, is_wait. destruct (part_of (a_pc bg)) as [[[j p] r]|]; [|done].
  case_decide; [|done]. intros ->. eauto.
Qed.
Lemma thread_or_task x j p t : part_of x = Some (j, p, QWait t) → match x with
  | JStart _ _ _ | JPark _ _ _ | JChk _ _ _ | JElapsed _ _ _ _ | JTime _ _ | JTimeIn _ _ => t = false
  | FIdle _ _ _ | FPoll _ _ _ | FPollIn _ _ _ | FDrop _ _ | FDropS _ _ | FDropIn _ _ => t = true
  | _ => False end.
Proof. destruct x; simpl; try (intros [= ? ? ?]; congruence); try done. destruct nm; [done|by destruct ws]. all: by destruct nm. Qed.


Ltac unpack := repeat match goal with
  | H : ∃ _, _ |- _ => let z := fresh in destruct H as [z H]
  | H : _ ∧ _ |- _ => let H1 := fresh in destruct H as [H1 H]
  end.
Lemma queued_in j c k id : EvWait (j, id) ∈ queued j c k id.
Proof. unfold queued. apply elem_of_app. right. right. left. Qed.
Lemma part_queued mask n c x h j p r : hpc mask n c x h → part_of x = Some (j, p, r) → (∃ t, r = QWait t) ∨ r = QWoke → 
  ∃ k, loads_key c = Some k ∧ h = queued j c k (ph_id p).
Proof.
  intros H Hp Hr. destruct x; simpl in *; try done; try (injection Hp as -> -> <-); unpack; try (destruct Hr as [[? ?]|?]; done); subst; eauto.
  all: try (destruct nm; [|destruct ws]; try done; injection Hp as -> -> <-; destruct Hr as [[? ?]|?]; done).
  all: try (destruct nm; try done; injection Hp as -> -> <-; destruct Hr as [[? ?]|?]; done).
Qed.
Lemma no_wait_asked j c k l : EvWait l ∉ asked j c k.
Proof. unfold asked. intros H. inl H. Qed.
Lemma hpc_push mask n c j p md h l : hpc mask n c (JPushIn j p md) h → EvWait l ∉ h.
Proof. simpl. intros (k & _ & _ & ->) H. inl H. Qed.

Lemma some_or_none {A} (f : A → bool) (zs : list A) : (∃ z, z ∈ zs ∧ f z = true) ∨ ∀ z, z ∈ zs → f z = false.
Proof.
  induction zs as [|z zs IH]; [right; by intros z ?%elem_of_nil|]. destruct (f z) eqn:E; [left; exists z; split; [left|done]|].
  destruct IH as [(z' & H1 & H2)|H]; [left; exists z'; split; [by right|done]|right]. intros z' [->|Hz]%elem_of_cons; auto.
Qed.
Definition wait_ev (ev : cevent P) : bool := match ev with EvWait _ => true | _ => false end.
Definition note_ev b (ev : cevent P) : bool := match ev with EvNote b' => bool_decide (b' = b) | _ => false end.
Definition on_agent b (u : nat * eff) : bool := bool_decide (u.1 = b).
Lemma noted_app g es a b : noted (g ++ map (pair a) es) b ↔ noted g b ∨ EvNote b ∈ es.
Proof.
  unfold noted. split.
  - intros [c H]. apply elem_of_app in H as [H|H]; [left; eauto|right]. apply elem_of_list_fmap in H as (ev & [= -> <-] & H). done.
  - intros [[c H]|H]; [exists c|exists a]; apply elem_of_app; [by left|right]. apply elem_of_list_fmap. eauto.
Qed.
Lemma queues_app g es a b : queues (g ++ map (pair a) es) b ↔ queues g b ∨ (b = a ∧ ∃ l, EvWait l ∈ es).
Proof.
  unfold queues. split.
  - intros [l H]. apply elem_of_app in H as [H|H]; [left; eauto|right]. apply elem_of_list_fmap in H as (ev & [= -> <-] & H). eauto.
  - intros [[l H]|[-> [l H]]]; exists l; apply elem_of_app; [by left|right]. apply elem_of_list_fmap. eauto.
Qed.
Lemma moved_only y y' a ag x' es us : y_agents y !! a = Some ag → moved y y' a x' es us → only_pc y y' a x'.
Proof.
  intros Ha M b. rewrite (md_lookup _ _ _ _ _ _ b M). case_decide.
  - subst. by rewrite Ha.
  - destruct (y_agents y !! b) as [bg|]; [|done]. simpl. by rewrite eff_pc.
Qed.
(* the notified agent *)
Lemma note_target dbg y a ag x' es us b : CInv y → y_agents y !! a = Some ag → mv dbg y a ag (a_pc ag) x' es us → EvNote b ∈ es →
  ∃ l t bg, y_agents y !! b = Some bg ∧ role y l b = QWait t ∧ a_flag bg = false ∧ (b, t) ∈ pend_r (role y l a) ∧ b ≠ a ∧ es = [EvNote b] ∧
    ((∃ j p ws nm, t = false ∧ x' = NUnpark j p b ws nm ∧ us = [(b, UFlag true)]) ∨ (t = true ∧ us = [(b, UWoke)])).
Proof.
  intros HC Ha M Hin. destruct (mv_notes _ _ _ _ _ _ _ _ _ M Hin) as (l & t & Hp & He & Hc).
  { apply (ci_pc _ _ _ _ _ HC _ _ Ha). }
  rewrite <-(role_at _ _ _ _ Ha) in Hp. destruct (l_pend _ (ci_load _ _ _ _ _ HC l) a (b, t) Hp) as [H1 H2]. simpl in H1, H2.
  unfold role in H1. destruct (y_agents y !! b) as [bg|] eqn:Hb; [|done]. rewrite (flag_at _ _ _ Hb) in H2.
  exists l, t, bg. split_and!; try done; [unfold role; by rewrite Hb|]. intros ->. rewrite (role_at _ _ _ _ Ha) in Hp.
  rewrite Ha in Hb. injection Hb as <-. rewrite H1 in Hp. by apply elem_of_nil in Hp.
Qed.

Lemma ninv_go dbg y y' a ag x' es us : CInv y → HInv y → NInv y → y_agents y !! a = Some ag → mv dbg y a ag (a_pc ag) x' es us →
  moved y y' a x' es us → NInv y'.
Proof.
  intros HC HH HN Ha M Hm. pose proof (moved_only _ _ _ _ _ _ _ Ha Hm) as Ho.
  assert (∀ b, EvNote b ∈ es → b ≠ a) as Hna.
  { intros b Hb. destruct (note_target _ _ _ _ _ _ _ _ HC Ha M Hb) as (l & t & bg & _ & _ & _ & _ & H & _). done. }
  split.
  - (* notifications *)
    intros b bg' Hb. destruct (md_case _ _ _ _ _ _ _ _ _ Hm Ha Hb) as (bg & Hb0 & _ & _ & Hf & _ & _ & _ & Hc). rewrite Hf, (md_log _ _ _ _ _ _ Hm).
    pose proof (ni_note _ HN _ _ Hb0) as Hn. destruct Hc as [(-> & -> & ->)|[Hne ->]].
    + assert (noted (y_log y ++ map (pair a) es) a ↔ noted (y_log y) a) as Hnt.
      { rewrite noted_app. split; [intros [?|H]; [done|by apply Hna in H]|by left]. }
      destruct (some_or_none wait_ev es) as [(ev & Hin & Hev)|Hw].
      { destruct ev; try done.
        destruct (mv_waits _ _ _ _ _ _ _ _ _ M Hin) as (j & p & md & Hx & -> & -> & -> & -> & _). rewrite push_flag.
        eapply npc_iff; [eapply npc_push; [exact Hn|]| |by symmetry].
        - intros [l Hl]. apply hist_in in Hl; [|done]. pose proof (hi_active _ _ _ HH Ha ltac:(by rewrite Hx)) as Hh. rewrite Hx in Hh. by eapply hpc_push.
        - rewrite queues_app. split; [|done]. intros _. right. split; [done|]. eexists. left. }
      eapply npc_iff; [eapply npc_mv; [exact M|exact Hn| |exact Hna]| |by symmetry].
      * intros l Hl. by apply Hw in Hl.
      * rewrite queues_app. split; [by left|]. intros [?|[_ [l Hl]]]; [done|]. by apply Hw in Hl.
    + assert (queues (y_log y ++ map (pair a) es) b ↔ queues (y_log y) b) as Hq.
      { rewrite queues_app. split; [intros [?|[-> _]]; done|by left]. }
      destruct (some_or_none (note_ev b) es) as [(ev & Hin & Hev)|Hw].
      { destruct ev; try done. apply bool_decide_eq_true in Hev. subst b0.
        destruct (note_target _ _ _ _ _ _ _ _ HC Ha M Hin) as (l & t & bg0 & Hb1 & Hr & Hf0 & Hp & _ & He & Hus).
        rewrite Hb0 in Hb1. injection Hb1 as <-. destruct (is_wait_role _ _ _ _ _ Hb0 Hr) as [Hw (j & p & Hpt & _)].
        assert (noted (y_log y ++ map (pair a) es) b) as Hnt by (apply noted_app; by right).
        assert (a_flag (eff_on b us bg) = true) as ->.
        { destruct Hus as [(? & ? & ? & ? & _ & _ & ->)|[_ ->]]; by rewrite eff_one. }
        split; [| |by rewrite Hw|by intros Hx; rewrite Hx in Hw].
        - intros _. apply Hq. pose proof (hi_active _ _ _ HH Hb0 ltac:(intros ? Hpx; by rewrite Hpx in Hpt)) as Hh.
          destruct (part_queued _ _ _ _ _ _ _ _ Hh Hpt ltac:(left; eauto)) as (k & _ & Heq). exists (j, ph_id p).
          apply hist_in; [done|]. rewrite Heq. apply queued_in.
        - done. }
      assert (EvNote b ∉ es) as Hnn by (intros Hin; apply Hw in Hin; simpl in Hin; by rewrite bool_decide_true in Hin).
      assert (a_flag (eff_on b us bg) = a_flag bg) as ->.
      { apply eff_flag_none. intros u Hu. destruct (mv_others _ _ _ _ _ _ _ _ _ _ M Hu Hne) as [_ [[-> ?]|[[-> _]|[-> ?]]]]; done. }
      eapply npc_iff; [exact Hn|by symmetry|]. rewrite noted_app. split; [by left|intros [?|?]; done].
  - (* the guard was given to somebody who was notified, or will be *)
    intros c l b. rewrite (md_log _ _ _ _ _ _ Hm). intros Hin. apply elem_of_app in Hin as [Hin|Hin].
    + destruct (ni_give _ HN _ _ _ Hin) as [Hn|[t Hr]]; [left; apply noted_app; by left|].
      destruct (decide (c = a)) as [->|Hne].
      * rewrite (role_at _ _ _ _ Ha) in Hr. destruct (mv_hand _ _ _ _ _ _ _ _ _ _ _ M (po_shape _ _ (ci_pc _ _ _ _ _ HC _ _ Ha)) Hr) as [H|H].
        -- left. apply noted_app. by right.
        -- right. exists t. rewrite (role_only _ _ _ _ _ _ Ho). by rewrite decide_True.
      * right. exists t. rewrite (role_only _ _ _ _ _ _ Ho). by rewrite decide_False.
    + apply elem_of_list_fmap in Hin as (ev & [= -> <-] & Hin). right. destruct (mv_gives _ _ _ _ _ _ _ _ _ _ M Hin) as [t Ht].
      exists t. rewrite (role_only _ _ _ _ _ _ Ho). by rewrite decide_True.
  - (* tokens *)
    assert (∀ b, unparks y b → (∀ j p ws nm, a_pc ag ≠ NUnpark j p b ws nm) → unparks y' b) as Hun.
    { intros b (c & cg & j & p & ws & nm & Hc & Hpc) Hx. destruct (decide (c = a)) as [->|Hne].
      { rewrite Ha in Hc. injection Hc as <-. by destruct (Hx j p ws nm). }
      specialize (Ho c). rewrite decide_False, Hc in Ho by done. simpl in Ho. destruct (y_agents y' !! c) as [cg'|] eqn:E; [|done].
      injection Ho as Ho. exists c, cg', j, p, ws, nm. by rewrite Ho. }
    intros b bg' Hb. destruct (md_case _ _ _ _ _ _ _ _ _ Hm Ha Hb) as (bg & Hb0 & _ & _ & Hf & Ht & _ & _ & Hc). rewrite Hf, Ht.
    pose proof (ni_token _ HN _ _ Hb0) as Hn. destruct Hc as [(-> & -> & ->)|[Hne ->]].
    + specialize (Hun a). revert Hn Hun. clear -M. generalize (unparks y a) (unparks y' a). intros u u' Hn Hun. destruct M; try done.
      * by destruct x; try done; simpl in *; [destruct js|destruct ws as [|[? []]]].
      * destruct H as [-> | ->]; done.
      * by destruct H.
      * by destruct sm.
      * destruct md as [[to|]|wk]; simpl; unfold eff_on; simpl; rewrite ?decide_True by done; done.
      * simpl in *. intros Hf. destruct (Hn Hf) as [?|Hu]; [by left|right]. by apply Hun.
      * simpl. intros Hf. congruence.
      * simpl. intros Hf. congruence.
      * simpl in *. intros Hf. destruct (Hn Hf) as [?|Hu]; [by left|right]. by apply Hun.
      * by destruct H0.
      * by destruct H1.
    + destruct (some_or_none (on_agent b) us) as [([b' u] & Hin & Hb')|Hw].
      * apply bool_decide_eq_true in Hb'. simpl in Hb'. subst b'.
        destruct (mv_others _ _ _ _ _ _ _ _ _ _ M Hin Hne) as [-> [[-> Hev]|[[-> (j & p & ws & nm & Hx)]|[-> Hev]]]]; rewrite eff_one; simpl.
        -- destruct (note_target _ _ _ _ _ _ _ _ HC Ha M Hev) as (l & t & bg0 & Hb1 & Hr & Hf0 & Hp & _ & He & Hus).
           destruct Hus as [(j & p & ws & nm & _ & -> & _)|[_ Hus]]; [|done].
           assert (unparks y' b) as Hu.
           { specialize (Ho a). rewrite decide_True in Ho by done. destruct (y_agents y' !! a) as [ag'|] eqn:E; [|done]. injection Ho as Ho.
             exists a, ag', j, p, ws, nm. done. }
           unfold tpc. destruct (a_pc bg); try done; intros _; by right.
        -- unfold tpc. destruct (a_pc bg); try done; intros _; by left.
        -- destruct (note_target _ _ _ _ _ _ _ _ HC Ha M Hev) as (l & t & bg0 & Hb1 & Hr & Hf0 & Hp & _ & He & Hus).
           destruct Hus as [(j & p & ws & nm & _ & _ & Hus)|[-> _]]; [done|]. rewrite Hb0 in Hb1. injection Hb1 as <-.
           destruct (is_wait_role _ _ _ _ _ Hb0 Hr) as [_ (j & p & Hpt & _)]. apply thread_or_task in Hpt. by destruct (a_pc bg).
      * rewrite eff_none by (intros u Hu; apply Hw in Hu; unfold on_agent in Hu; by rewrite bool_decide_true in Hu).
        unfold tpc in *. destruct (a_pc bg); try done; intros Hfl; (destruct (Hn Hfl) as [?|Hu]; [by left|right]).
        all: apply Hun; [done|]; intros j' p' ws nm Hx; rewrite Hx in M; inversion M; subst; try done; specialize (Hw _ ltac:(left)); unfold on_agent in Hw; by rewrite bool_decide_true in Hw.
  - (* who is notified exists *)
    intros b. rewrite (md_log _ _ _ _ _ _ Hm), noted_app, (md_length _ _ _ _ _ _ Hm). intros [H|H]; [by apply (ni_known _ HN)|].
    destruct (note_target _ _ _ _ _ _ _ _ HC Ha M H) as (l & t & bg & Hb & _). by eapply lookup_lt_Some.
  - (* wakers *)
    intros b bg' Hb. destruct (md_case _ _ _ _ _ _ _ _ _ Hm Ha Hb) as (bg & Hb0 & _ & _ & Hf & _ & Hwk & Hwo & Hc). rewrite Hf, Hwk, Hwo.
    pose proof (ni_waker _ HN _ _ Hb0) as Hn. destruct Hc as [(-> & -> & ->)|[Hne ->]].
    + revert Hn. clear -M. intros Hn. destruct M; try done.
      * by destruct x; try done; simpl in *; [destruct js|destruct ws as [|[? []]]].
      * destruct H as [-> | ->]; done.
      * by destruct H.
      * by destruct sm.
      * destruct md as [[to|]|wk]; simpl; unfold eff_on; simpl; rewrite ?decide_True by done; done.
      * by destruct H0.
      * simpl. unfold eff_on; simpl; rewrite ?decide_True by done. simpl. split; [done|]. congruence.
      * by destruct H1.
    + destruct (some_or_none (on_agent b) us) as [([b' u] & Hin & Hb')|Hw].
      * apply bool_decide_eq_true in Hb'. simpl in Hb'. subst b'.
        destruct (mv_others _ _ _ _ _ _ _ _ _ _ M Hin Hne) as [-> [[-> Hev]|[[-> (j & p & ws & nm & Hx)]|[-> Hev]]]]; rewrite eff_one; simpl.
        -- destruct (note_target _ _ _ _ _ _ _ _ HC Ha M Hev) as (l & t & bg0 & Hb1 & Hr & Hf0 & Hp & _ & He & Hus).
           destruct Hus as [(j & p & ws & nm & -> & _ & _)|[_ Hus]]; [|done]. rewrite Hb0 in Hb1. injection Hb1 as <-.
           destruct (is_wait_role _ _ _ _ _ Hb0 Hr) as [_ (j' & p' & Hpt & _)]. apply thread_or_task in Hpt. by destruct (a_pc bg).
        -- done.
        -- unfold wpc in *. destruct (a_pc bg); try done. destruct Hn as [-> _]. done.
      * by rewrite eff_none by (intros u Hu; apply Hw in Hu; unfold on_agent in Hu; by rewrite bool_decide_true in Hu).
Qed.
Lemma ext_events lb a ag x x' es ev : ext lb a ag x x' es → ev ∈ es → ev = EvRet RetCancel.
Proof. intros M Hin. destruct M; try by inl Hin. Qed.
Lemma ninv_ext y y' lb a ag x' es : CInv y → NInv y → y_agents y !! a = Some ag → ext lb a ag (a_pc ag) x' es →
  moved y y' a x' es [] → NInv y'.
Proof.
  intros HC HN Ha M Hm. pose proof (moved_only _ _ _ _ _ _ _ Ha Hm) as Ho.
  assert (∀ b, noted (y_log y') b ↔ noted (y_log y) b) as Hnt.
  { intros b. rewrite (md_log _ _ _ _ _ _ Hm), noted_app. split; [|by left]. intros [?|H]; [done|]. by apply (ext_events _ _ _ _ _ _ _ M) in H. }
  assert (∀ b, queues (y_log y') b ↔ queues (y_log y) b) as Hq.
  { intros b. rewrite (md_log _ _ _ _ _ _ Hm), queues_app. split; [|by left]. intros [?|[_ [l H]]]; [done|]. by apply (ext_events _ _ _ _ _ _ _ M) in H. }
  assert (∀ b, unparks y b → unparks y' b) as Hun.
  { intros b (c & cg & j & p & ws & nm & Hc & Hpc). specialize (Ho c). destruct (y_agents y' !! c) as [cg'|] eqn:E.
    - case_decide; [subst c; rewrite Ha in Hc; injection Hc as <-; rewrite Hpc in M; inversion M|].
      rewrite Hc in Ho. injection Ho as Ho. exists c, cg', j, p, ws, nm. by rewrite Ho.
    - case_decide; [done|]. by rewrite Hc in Ho. }
  split.
  - intros b bg' Hb. destruct (md_case _ _ _ _ _ _ _ _ _ Hm Ha Hb) as (bg & Hb0 & _ & _ & Hf & _ & _ & _ & Hc). rewrite Hf.
    eapply npc_iff; [|symmetry; apply Hq|symmetry; apply Hnt]. pose proof (ni_note _ HN _ _ Hb0) as Hn. destruct Hc as [(-> & -> & ->)|[Hne ->]]; [|done].
    simpl. revert Hn. clear -M. generalize (queues (y_log y) a) (noted (y_log y) a). intros w nt Hn.
    destruct M; try (by eapply npc_done); (eapply npc_go; [exact Hn|done|done|by auto]).
  - intros c l b Hin. rewrite Hnt. rewrite (md_log _ _ _ _ _ _ Hm) in Hin. apply elem_of_app in Hin as [Hin|Hin].
    + destruct (ni_give _ HN _ _ _ Hin) as [Hn|[t Hr]]; [by left|right]. exists t. rewrite (role_only _ _ _ _ _ _ Ho). case_decide; [|done].
      subst c. rewrite (role_at _ _ _ _ Ha) in Hr. clear -M Hr. unfold role_pc in *. destruct M; try done; simpl in *; by case_decide.
    + apply elem_of_list_fmap in Hin as (ev & [= -> <-] & Hin). by apply (ext_events _ _ _ _ _ _ _ M) in Hin.
  - intros b bg' Hb. destruct (md_case _ _ _ _ _ _ _ _ _ Hm Ha Hb) as (bg & Hb0 & _ & _ & Hf & Ht & _ & _ & Hc). rewrite Hf, Ht.
    pose proof (ni_token _ HN _ _ Hb0) as Hn. destruct Hc as [(-> & -> & ->)|[Hne ->]]; simpl.
    + by destruct M.
    + unfold tpc in *. destruct (a_pc bg); try done; intros Hfl; (destruct (Hn Hfl) as [?|Hu]; [by left|right; by apply Hun]).
  - intros b. rewrite Hnt, (md_length _ _ _ _ _ _ Hm). apply (ni_known _ HN).
  - intros b bg' Hb. destruct (md_case _ _ _ _ _ _ _ _ _ Hm Ha Hb) as (bg & Hb0 & _ & _ & Hf & _ & Hwk & Hwo & Hc). rewrite Hf, Hwk, Hwo.
    pose proof (ni_waker _ HN _ _ Hb0) as Hn. destruct Hc as [(-> & -> & ->)|[Hne ->]]; [|done]. by destruct M.
Qed.
(* a first program counter *)
Lemma first_quiet y c x : first_pc y c = Some (Ok x) → part_of x = None ∧ is_wait x = false ∧ is_done x = false ∧ tpc x false false False ∧ wpc x false 0 None.
Proof.
  unfold first_pc. destruct c as [m|k to|k].
  - destruct (sync_cmd m); [|done]. destruct (key_of m) as [k|].
    + destruct (shard_for (y_cache y) k) as [j|]; [|done]. cbn. intros [= <-]. by destruct m.
    + intros [= <-]. done.
  - destruct (shard_for (y_cache y) k) as [j|]; [|done]. cbn. by intros [= <-].
  - destruct (shard_for (y_cache y) k) as [j|]; [|done]. cbn. by intros [= <-].
Qed.
Lemma ninv_step dbg y lb y' : CInv y → HInv y → NInv y → stepped dbg y y' lb → NInv y'.
Proof.
  intros HC HH HN. destruct 1 as [a ag x' es us Ha M Hm|lb a ag x' es Ha M Hm|c x Hf ->|d ->].
  - by eapply ninv_go.
  - by eapply ninv_ext.
  - destruct (first_quiet _ _ _ Hf) as (Hp & Hw & Hd & Ht & Hwk).
    set (n := length (y_agents y)). set (y' := logged _ _ _).
    assert (∀ b, noted (y_log y') b ↔ noted (y_log y) b) as Hnt.
    { intros b. change (y_log y') with (y_log y ++ map (pair n) [EvCall c]). rewrite noted_app. split; [|by left]. intros [?|H]; [done|]. by apply elem_of_list_singleton in H. }
    assert (∀ b, queues (y_log y') b ↔ queues (y_log y) b) as Hq.
    { intros b. change (y_log y') with (y_log y ++ map (pair n) [EvCall c]). rewrite queues_app. split; [|by left]. intros [?|[_ [l H]]]; [done|]. by apply elem_of_list_singleton in H. }
    assert (∀ b bg, y_agents y !! b = Some bg → y_agents y' !! b = Some bg) as Hold by (intros b bg Hb; simpl; by apply lookup_app_l_Some).
    assert (∀ b bg, y_agents y' !! b = Some bg → y_agents y !! b = Some bg ∨ (b = n ∧ bg = Agent c (y_now y) x false false 0 None)) as Hnew.
    { intros b bg Hb. apply lookup_app_Some in Hb as [Hb|[Hle Hb]]; [by left|right]. apply list_lookup_singleton_Some in Hb as [Hz <-]. split; [lia|done]. }
    assert (¬ queues (y_log y) n) as Hqn by (intros [l Hl]; apply (hi_log _ HH) in Hl; lia).
    assert (¬ noted (y_log y) n) as Hnn.
    { intros H. apply (ni_known _ HN) in H. unfold n in H. lia. }
    split.
    + intros b bg Hb. eapply npc_iff; [|symmetry; apply Hq|symmetry; apply Hnt]. destruct (Hnew b bg Hb) as [H|[-> ->]]; [by apply (ni_note _ HN)|].
      simpl. by split.
    + intros a l b Hin. rewrite Hnt. change (y_log y') with (y_log y ++ [(n, EvCall c)]) in Hin. apply elem_of_app in Hin as [Hin|Hin].
      * destruct (ni_give _ HN _ _ _ Hin) as [Hn|[t Hr]]; [by left|right]. exists t. unfold role in *.
        destruct (y_agents y !! a) as [ag|] eqn:E; [|done]. by rewrite (Hold a ag E).
      * by apply elem_of_list_singleton in Hin.
    + intros b bg Hb. destruct (Hnew b bg Hb) as [H|[-> ->]].
      * pose proof (ni_token _ HN _ _ H) as Hn. assert (unparks y b → unparks y' b) as Hu by (intros (a & ag & j & p & ws & nm & Ha & Hx); exists a, ag, j, p, ws, nm; auto).
        unfold tpc in *. destruct (a_pc bg); try done; intros Hfl; (destruct (Hn Hfl) as [?|?]; [by left|right; by apply Hu]).
      * simpl. unfold tpc in *. destruct x; done.
    + intros b. rewrite Hnt. intros H. apply (ni_known _ HN) in H. simpl. rewrite app_length. simpl. lia.
    + intros b bg Hb. destruct (Hnew b bg Hb) as [H|[-> ->]]; [by apply (ni_waker _ HN b bg)|done].
  - destruct HN as [A B C D]. split; done.
Qed.

(* ---- time ---- *)
Definition timed_out (now born : N) c : Prop := ∃ k to, c = KLoad k (Some to) ∧ (born + to ≤ now)%N.
Definition tmpc (now born : N) c x : Prop :=
  match x with
  | JPark _ _ (Some (st, to, d)) | JChk _ _ (Some (st, to, d)) =>
      (born ≤ st)%N ∧ (st ≤ now)%N ∧ (st ≤ d)%N ∧ (d = st ∨ (d < st + 2 * to)%N)
  | JElapsed _ _ st _ => (born ≤ st)%N ∧ (st ≤ now)%N
  | JTime _ _ | JTimeIn _ _ | ADone RetTimeout => timed_out now born c
  | _ => True
  end.
Record TInv y : Prop := {
  ti_born : ∀ a ag, y_agents y !! a = Some ag → (a_born ag ≤ y_now y)%N;
  ti_pc : ∀ a ag, y_agents y !! a = Some ag → tmpc (y_now y) (a_born ag) (a_call ag) (a_pc ag);
}.
Lemma tmpc_mv dbg y a ag mask n c born x x' es us h : mv dbg y a ag x x' es us → hpc mask n c x h → (born ≤ y_now y)%N →
  tmpc (y_now y) born c x → tmpc (y_now y) born c x'.
Proof.
  intros M Hh Hb Ht. destruct M; try done.
  - destruct x; try done; simpl in *; try by destruct js. by destruct ws as [|[? []]].
  - by destruct H as [-> | ->].
  - subst r. by destruct c0.
  - by destruct H.
  - by destruct sm.
  - by destruct md as [[]|].
  - unfold tmpc. lia.
  - unfold tmpc in *. lia.
  - unfold tmpc in *. lia.
  - simpl in *. destruct Hh as (k & -> & _). exists k, to. split; [done|]. lia.
  - by destruct H0.
  - by destruct H1.
Qed.
Lemma tmpc_later now now' born c x : (now ≤ now')%N → tmpc now born c x → tmpc now' born c x.
Proof.
  intros Hn. unfold tmpc, timed_out. destruct x; try done.
  - destruct tm as [[[st to] d]|]; [|done]. lia.
  - destruct tm as [[[st to] d]|]; [|done]. lia.
  - lia.
  - intros (k & to & -> & H). exists k, to. split; [done|lia].
  - intros (k & to & -> & H). exists k, to. split; [done|lia].
  - destruct r; try done. intros (k & to & -> & H). exists k, to. split; [done|lia].
Qed.
Lemma tinv_moved y y' a ag x' es us : TInv y → y_agents y !! a = Some ag → moved y y' a x' es us →
  tmpc (y_now y) (a_born ag) (a_call ag) x' → TInv y'.
Proof.
  intros [H1 H2] Ha Hm Hx. split; intros b bg Hb; destruct (md_case _ _ _ _ _ _ _ _ _ Hm Ha Hb) as (bg0 & Hb0 & Hc & Hbo & _ & _ & _ & _ & Hcase);
    rewrite (md_now _ _ _ _ _ _ Hm), ?Hc, Hbo; [by eapply H1|]. destruct Hcase as [(-> & -> & ->)|[_ ->]]; [done|by eapply H2].
Qed.
Lemma tinv_step dbg y lb y' : HInv y → TInv y → stepped dbg y y' lb → TInv y'.
Proof.
  intros HH HT. destruct 1 as [a ag x' es us Ha M Hm|lb a ag x' es Ha M Hm|c x Hf ->|d ->].
  - eapply tinv_moved; [done|done|done|]. eapply tmpc_mv; [exact M|eapply (hi_active _ _ _ HH Ha); intros r E; rewrite E in M; by eapply mv_not_done|by eapply (ti_born _ HT)|by eapply (ti_pc _ HT)].
  - eapply tinv_moved; [done|done|done|]. pose proof (ti_pc _ HT _ _ Ha) as Ht. by destruct M.
  - destruct HT as [H1 H2]. split; intros b bg Hb; apply lookup_app_Some in Hb as [Hb|[Hle Hb]]; simpl.
    + by eapply H1.
    + apply list_lookup_singleton_Some in Hb as [Hz <-]. simpl. lia.
    + by eapply H2.
    + apply list_lookup_singleton_Some in Hb as [Hz <-]. simpl. destruct (first_quiet _ _ _ Hf) as (Hp & Hw & Hd & _). by destruct x.
  - destruct HT as [H1 H2]. split; intros b bg Hb; simpl in *.
    + specialize (H1 _ _ Hb). lia.
    + eapply tmpc_later; [|by eapply H2]. lia.
Qed.

(* ---- all of it ---- *)
Record Reach y : Prop := { rc_c : CInv y; rc_h : HInv y; rc_n : NInv y; rc_t : TInv y }.
Lemma reach_step dbg y lb y' : Reach y → cstep dbg y lb = Some (Ok y') → Reach y'.
Proof.
  intros [HC HH HN HT] Hs. pose proof (cstep_stepped LW PI _ _ _ _ HC Hs) as Hst.
  split; [|by eapply hinv_step|by eapply ninv_step|by eapply tinv_step].
  by pose proof (cstep_keeps LW PI _ _ _ _ HC Hs).
Qed.
End concnote.

Section concreach.
Context {P : Params} (LW : Lawful P) (PI : ptr_ids P = true).
Context {budget ghosts cap e : N}.
Notation Reach := (@Reach P (full P) budget ghosts cap e).
Lemma reach_new : Reach (sys_new budget ghosts cap e).
Proof.
  split; [apply cinv_new_sys|apply hinv_new| |by split].
  split; try done. - intros a l b H. by apply elem_of_nil in H. - intros b [a H]. by apply elem_of_nil in H.
Qed.
Lemma reach dbg ls y : execution dbg budget ghosts cap e ls y → Reach y.
Proof.
  unfold execution. intros H. remember (sys_new budget ghosts cap e) as y0. induction H as [|y0 ls y1 lb y2 H IH Hs].
  - subst. apply reach_new.
  - subst y0. by eapply (reach_step LW PI); [apply IH|].
Qed.
End concreach.
