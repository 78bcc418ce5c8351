(* What the events say about the state, and the state about the events. *)
From stdpp Require Import prelude list functions.
From Verif Require Export ConcNote ConcLegal.

Section conclog.
Context {P : Params} (LW : Lawful P) (PI : ptr_ids P = true).
Context {budget ghosts cap e : N}.
Notation K := (K P). Notation V := (V P). Notation RS := (RS P).
Notation shard := (shard P). Notation sys := (sys P). Notation pc := (pc P). Notation agent := (agent P).
Notation CInv := (CInv budget ghosts cap e). Notation Reach := (@Reach P (full P) budget ghosts cap e).
Implicit Types (s : shard) (k : K) (v : V) (rs : RS) (p : plh) (a b : nat) (l : loc) (j : nat) (y : sys) (x : pc) (ag : agent).
Implicit Types (c : call P) (h es : list (cevent P)) (g : list (nat * cevent P)).

Local Ltac inl H := repeat match type of H with
  | _ ∈ _ :: _ => apply elem_of_cons in H as [H|H]; [try (discriminate H)|]
  | _ ∈ [] => by apply elem_of_nil in H
  end.
Local Ltac evs Hin := match goal with
  | Hs : starts _ _ _ _ _ ?es |- _ => inl Hin; apply (starts_ev _ _ _ _ _ _ _ Hs) in Hin as (Hin & ? & ?); try discriminate Hin
  | _ => match type of Hin with _ ∈ guarded_ev _ _ _ => apply guarded_ev_in in Hin; try discriminate Hin | _ => inl Hin end
  end.

(* ---- histories ---- *)
Definition loud (ev : cevent P) : bool := match ev with EvPut _ _ | EvGive _ _ | EvEnd _ | EvRet _ => true | _ => false end.
Definition hushed h : bool := forallb (λ ev, negb (loud ev)) h.
Lemma hushed_app h1 h2 : hushed (h1 ++ h2) = hushed h1 && hushed h2.
Proof. apply forallb_app. Qed.
Lemma hushed_in h ev : hushed h = true → ev ∈ h → loud ev = false.
Proof. unfold hushed. rewrite forallb_forall. intros H Hin%elem_of_list_In. apply H in Hin. by destruct (loud ev). Qed.
Lemma guarded_hushed j c k id h : guarded j c k id h → hushed h = true.
Proof. by intros []. Qed.
Lemma guardian_hushed j c k id h : guardian j c k id h → hushed h = true.
Proof. intros [H|[_ ->]]; [by eapply guarded_hushed|done]. Qed.
Definition calm (r : lrole P) : bool := match r with QPush | QWait _ | QWoke | QGuard => true | _ => false end.
Lemma calm_hist mask n c x h j p r : hpc mask n c x h → part_of x = Some (j, p, r) → calm r = true → hushed h = true.
Proof.
  intros H Hp Hr. destruct x; try discriminate Hp; simpl in H;
    repeat match goal with
    | H : ∃ _, _ |- _ => destruct H as [? H]
    | H : _ ∧ _ |- _ => destruct H
    | H : match ?z with _ => _ end |- _ => destruct z
    end; subst; try done; try (by eapply guarded_hushed); try (by eapply guardian_hushed).
  all: simpl in Hp; try by (injection Hp as _ _ <-). by destruct ws; [|injection Hp as _ _ <-].
Qed.
Local Ltac unhist H := repeat match goal with
    | H : ∃ _, _ |- _ => destruct H as [? H]
    | H : _ ∧ _ |- _ => destruct H
    | H : match ?z with _ => _ end |- _ => destruct z
    end.
Lemma undone_hist mask n c x h r : hpc mask n c x h → is_done x = false → EvRet r ∉ h.
Proof.
  intros H Hd Hin.
  assert (∀ h0, hushed h0 = true → EvRet r ∉ h0) as Hh by (intros h0 H0 H1; apply (hushed_in _ _ H0) in H1; done).
  destruct x; try discriminate Hd; simpl in H;
    unhist H; subst; try (by eapply Hh; [|exact Hin]);
    try (by eapply Hh; [eapply guarded_hushed; eassumption|exact Hin]); try (by eapply Hh; [eapply guardian_hushed; eassumption|exact Hin]).
  1,2: apply elem_of_cons in Hin as [Hin|Hin]; [done|]; apply elem_of_list_fmap in Hin as (? & ? & _); done.
  all: apply elem_of_app in Hin as [Hin|Hin]; [|by apply elem_of_list_singleton in Hin].
  all: first [by eapply Hh; [eapply guarded_hushed; eassumption|exact Hin] | by eapply Hh; [eapply guardian_hushed; eassumption|exact Hin]].
Qed.
(* an agent that did something about a load started it or found it pending *)
Definition joined j (id : N) h : Prop := ∃ k, EvSec j (OJoin k) (SNew id) ∈ h ∨ EvSec j (OJoin k) (SWait id) ∈ h.
Definition abouts j (id : N) h : Prop := ∀ ev l, ev ∈ h → about ev = Some l → l = (j, id).
Lemma abouts_app j id h1 h2 : abouts j id h1 → abouts j id h2 → abouts j id (h1 ++ h2).
Proof. intros H1 H2 ev l. rewrite elem_of_app. intros [H|H]; [by apply H1|by apply H2]. Qed.
Lemma abouts_one j id ev : about ev = None ∨ about ev = Some (j, id) → abouts j id [ev].
Proof. intros H ev' l ->%elem_of_list_singleton. destruct H as [-> | ->]; [done|]. by intros [= <-]. Qed.
Lemma abouts_cons j id ev h : about ev = None ∨ about ev = Some (j, id) → abouts j id h → abouts j id (ev :: h).
Proof. intros H1 H2. apply (abouts_app j id [ev]); [by apply abouts_one|done]. Qed.
Lemma abouts_nil j id : abouts j id [].
Proof. intros ev l ?%elem_of_nil. done. Qed.
Lemma joined_app j id h1 h2 : joined j id h1 → joined j id (h1 ++ h2).
Proof. intros [k H]. exists k. rewrite !elem_of_app. tauto. Qed.
Lemma began_joined j c k id : joined j id (began j c k id) ∧ abouts j id (began j c k id).
Proof.
  split; [exists k; left; by repeat constructor|]. unfold began, asked. simpl. repeat apply abouts_cons; auto using abouts_nil.
Qed.
Lemma queued_joined j c k id : joined j id (queued j c k id) ∧ abouts j id (queued j c k id).
Proof.
  split; [exists k; right; by repeat constructor|]. unfold queued, asked. simpl. repeat apply abouts_cons; auto using abouts_nil.
Qed.
Lemma guarded_joined j c k id h : guarded j c k id h → joined j id h ∧ abouts j id h.
Proof.
  intros [|].
  - destruct (began_joined j c k id). split; [by apply joined_app|]. apply abouts_app; [done|]. apply abouts_one. by right.
  - destruct (queued_joined j c k id). split; [by apply joined_app|]. apply abouts_app; [done|]. apply abouts_one. by right.
Qed.
Lemma guardian_joined j c k id h : guardian j c k id h → joined j id h ∧ abouts j id h.
Proof. intros [H|[_ ->]]; [by eapply guarded_joined|apply queued_joined]. Qed.
Lemma dropped_abouts j id h : dropped j id h → abouts j id h.
Proof. intros [b|]; repeat apply abouts_cons; auto using abouts_nil. Qed.
Lemma app_joined j id h1 h2 : joined j id h1 ∧ abouts j id h1 → abouts j id h2 → joined j id (h1 ++ h2) ∧ abouts j id (h1 ++ h2).
Proof. intros [H1 H2] H3. split; [by apply joined_app|by apply abouts_app]. Qed.
Lemma hpc_known mask n c x h : hpc mask n c x h → (∀ ev, ev ∈ h → about ev = None) ∨ ∃ j id, joined j id h ∧ abouts j id h.
Proof.
  intros H.
  assert (∀ m i, ∀ ev, ev ∈ EvCall c :: map (all_ev m) (seq 0 i) → about ev = None) as Hall.
  { intros m i ev Hin. apply elem_of_cons in Hin as [->|Hin]; [done|]. apply elem_of_list_fmap in Hin as (? & -> & _). done. }
  assert (∀ h0, forallb (λ ev : cevent P, match about ev with None => true | _ => false end) h0 = true → ∀ ev, ev ∈ h0 → about ev = None) as Hnone.
  { intros h0. rewrite forallb_forall. intros H0 ev Hin%elem_of_list_In. apply H0 in Hin. by destruct (about ev). }
  destruct x; simpl in H; unhist H; subst;
    try (left; by apply Hnone); try (left; apply Hall);
    try (right; eexists _, _; by eapply guarded_joined); try (right; eexists _, _; by eapply guardian_joined);
    try (right; eexists _, _; by apply queued_joined); try (right; eexists _, _; by apply began_joined);
    try (right; eexists _, _; apply app_joined; [first [by eapply guarded_joined|by eapply guardian_joined]|apply abouts_one; by right]).
  - right. eexists _, _. split; [eexists; right; by repeat constructor|]. simpl. repeat apply abouts_cons; auto using abouts_nil.
  - right. eexists _, _. split; [eexists; right; by repeat constructor|]. simpl. repeat apply abouts_cons; auto using abouts_nil.
  - match goal with H : life _ _ _ ?h0 _ |- _ => destruct H end; try (left; by apply Hnone).
    + left. rewrite <-app_comm_cons. intros ev Hin. apply elem_of_cons in Hin as [->|Hin]; [done|]. apply elem_of_app in Hin as [Hin|Hin].
      * apply elem_of_list_fmap in Hin as (? & -> & _). done.
      * by apply elem_of_list_singleton in Hin as ->.
    + right. eexists _, _. split; [eexists; right; by repeat constructor|]. simpl. repeat apply abouts_cons; auto using abouts_nil.
    + right. eexists _, _. apply app_joined; [apply queued_joined|apply abouts_one; by right].
    + right. eexists _, _. apply app_joined; [apply queued_joined|apply abouts_one; by left].
    + right. eexists _, _. apply app_joined; [apply queued_joined|apply abouts_one; by left].
    + right. eexists _, _. apply app_joined; [apply app_joined; [apply queued_joined|by apply dropped_abouts]|apply abouts_one; by left].
    + right. eexists _, _. rewrite <-app_assoc. apply app_joined; [by eapply guarded_joined|]. repeat apply abouts_cons; auto using abouts_nil.
    + right. eexists _, _. rewrite <-app_assoc. apply app_joined; [by eapply guarded_joined|]. repeat apply abouts_cons; auto using abouts_nil.
    + right. eexists _, _. apply app_joined; [apply app_joined; [by eapply guarded_joined|by apply dropped_abouts]|apply abouts_one; by left].
Qed.
Lemma about_note (ev : cevent P) l : about ev = Some l → not_note ev = true.
Proof. by destruct ev. Qed.
Lemma known_joined y b ev j id : HInv y → (b, ev) ∈ y_log y → about ev = Some (j, id) → joined j id (hist (y_log y) b).
Proof.
  intros HH Hin Hab. pose proof (hi_log _ HH _ _ Hin) as Hlt. apply lookup_lt_is_Some in Hlt as [bg Hb].
  apply hist_in in Hin; [|by eapply about_note]. destruct (hpc_known _ _ _ _ _ (hi_agent _ HH _ _ Hb)) as [H|(j0 & id0 & H1 & H2)].
  - apply H in Hin. congruence.
  - assert ((j, id) = (j0, id0)) as [= -> ->] by (by eapply H2). done.
Qed.

(* ---- sections ---- *)
Lemma in_sections j g o r : (o, r) ∈ sections j g ↔ ∃ a, (a, EvSec j o r) ∈ g.
Proof.
  unfold sections. rewrite elem_of_list_In, in_concat. split.
  - intros (z & Hz & Hin). apply in_map_iff in Hz as ([a ev] & <- & Hg). apply elem_of_list_In in Hg, Hin. exists a. unfold sec_of in Hin. simpl in Hin.
    destruct ev; try by apply elem_of_nil in Hin. case_decide; [subst|by apply elem_of_nil in Hin]. apply elem_of_list_singleton in Hin. by injection Hin as -> ->.
  - intros [a Ha]. exists [(o, r)]. split; [|by left]. apply in_map_iff. exists (a, EvSec j o r). split; [|by apply elem_of_list_In].
    unfold sec_of. simpl. by rewrite decide_True.
Qed.
Lemma joined_sections j id g b : joined j id (hist g b) → ∃ k, (OJoin k, SNew id) ∈ sections j g ∨ (OJoin k, SWait id) ∈ sections j g.
Proof.
  intros [k [H|H]]; exists k; rewrite !in_sections; [left|right]; exists b; by apply hist_in.
Qed.

(* ---- who waits, who is in charge ---- *)
Lemma role_some y l a r : role y l a = r → r ≠ QNone → ∃ ag j p, y_agents y !! a = Some ag ∧ part_of (a_pc ag) = Some (j, p, r) ∧ l = pl j p.
Proof.
  unfold role, role_pc. intros H Hr. destruct (y_agents y !! a) as [ag|]; [|congruence]. exists ag.
  destruct (part_of (a_pc ag)) as [[[j p] r']|]; [|congruence]. case_decide; [|congruence]. exists j, p. subst. done.
Qed.
Lemma role_of y a ag j p r : y_agents y !! a = Some ag → part_of (a_pc ag) = Some (j, p, r) → role y (pl j p) a = r.
Proof. intros Ha Hp. unfold role, role_pc. by rewrite Ha, Hp, decide_True. Qed.
Lemma calm_settled y l a : Reach y → calm (role y l a) = true → ∀ l', ¬ settled (y_log y) l' a.
Proof.
  intros HR Hc l'. destruct (role_some y l a _ eq_refl) as (ag & j & p & Ha & Hp & ->); [intros E; by rewrite E in Hc|].
  pose proof (calm_hist _ _ _ _ _ _ _ _ (hi_agent _ (rc_h _ HR) _ _ Ha) Hp Hc) as Hh.
  intros [[v H]|[[b H]|H]]; (apply hist_in in H; [|done]); by apply (hushed_in _ _ Hh) in H.
Qed.
Lemma keeps_calm y l a : keeps (lview y l) a → calm (role y l a) = true.
Proof. unfold keeps. simpl. by destruct (role y l a). Qed.
Lemma in_charge_iff y l a : Reach y →
  in_charge (y_log y) l a ↔ at_load y l = Loading ∧ (keeps (lview y l) a ∨ ∃ b t, role y l b = QHand (a, t)).
Proof.
  intros HR. pose proof (ci_load _ _ _ _ _ (rc_c _ HR) l) as HL. split.
  - intros [Ht Hs]. destruct (l_ent _ HL a Ht) as [H|H]; [by destruct Hs|exact H].
  - intros [Hld [Hk|(b & t & Hb)]].
    + split.
      * apply (l_ownent _ HL Hld). unfold owns. unfold keeps in Hk. simpl in *. by destruct (role y l a).
      * eapply calm_settled; [done|by eapply keeps_calm].
    + split; [by apply (l_hand _ HL b (a, t))|]. eapply (calm_settled y l); [done|].
      destruct (l_pend _ HL b (a, t)) as [Hr _]; [unfold pend; simpl; rewrite Hb; left|]. simpl in Hr. by rewrite Hr.
Qed.
Lemma waiting_iff y l a : Reach y → waiting (y_log y) l a ↔ ∃ t, role y l a = QWait t ∧ flag y a = false.
Proof.
  intros HR. split.
  - intros (Hw & Hn & Hr). pose proof (hi_log _ (rc_h _ HR) _ _ Hw) as Hlt. apply lookup_lt_is_Some in Hlt as [ag Ha].
    pose proof (hi_agent _ (rc_h _ HR) _ _ Ha) as Hh. pose proof (ni_note _ (rc_n _ HR) _ _ Ha) as Hnp.
    destruct (is_wait (a_pc ag)) eqn:Ew.
    + pose proof Ew as Ew'. unfold is_wait in Ew'. destruct (part_of (a_pc ag)) as [[[j p] r]|] eqn:Hp; [|done]. destruct r as [| |t| | | | |]; try done.
      exists t. unfold flag. rewrite Ha. destruct (a_flag ag) eqn:Ef; [destruct Hn; by apply (np_flag _ _ _ _ Hnp)|]. split; [|done].
      replace l with (pl j p); [by eapply role_of|]. apply hist_in in Hw; [|done].
      destruct (part_queued _ _ _ _ _ _ _ _ Hh Hp) as (k & _ & Hq); [left; eauto|]. rewrite Hq in Hw.
      destruct (queued_joined j (a_call ag) k (ph_id p)) as [_ H]. symmetry. by eapply H.
    + destruct (is_done (a_pc ag)) eqn:Ed.
      * destruct Hr. destruct (a_pc ag) eqn:E; try discriminate Ed. exists r. apply hist_in; [done|]. destruct Hh as (h0 & _ & ->). apply elem_of_app. right. by left.
      * destruct Hn. apply (np_past _ _ _ _ Hnp); [done|done|]. by exists l.
  - intros (t & Hr & Hf). destruct (role_some y l a _ Hr ltac:(done)) as (ag & j & p & Ha & Hp & ->).
    pose proof (hi_agent _ (rc_h _ HR) _ _ Ha) as Hh. pose proof (ni_note _ (rc_n _ HR) _ _ Ha) as Hnp.
    destruct (is_wait_role _ _ _ _ _ Ha Hr) as [Hw _]. unfold flag in Hf. rewrite Ha in Hf. split_and!.
    + apply hist_in; [done|]. destruct (part_queued _ _ _ _ _ _ _ _ Hh Hp) as (k & _ & Hq); [left; eauto|]. rewrite Hq. apply queued_in.
    + intros H. apply (np_flag _ _ _ _ Hnp) in H; [congruence|done].
    + intros [r H]. apply hist_in in H; [|done]. eapply undone_hist; [exact Hh| |exact H].
      unfold is_wait in Hw. destruct (a_pc ag); try done.
Qed.

Lemma guard_loading y l a : Reach y → role y l a = QGuard → at_load y l = Loading.
Proof.
  intros HR Hr. pose proof (ci_load _ _ _ _ _ (rc_c _ HR) l) as HL. destruct (at_load y l) eqn:E; [done| |].
  - destruct (l_insg _ HL v E a). unfold guardish. simpl. by rewrite Hr.
  - destruct (l_term _ HL E) as (_ & _ & H). specialize (H a). simpl in H. congruence.
Qed.
Lemma guard_charge y l a : Reach y → role y l a = QGuard → in_charge (y_log y) l a.
Proof.
  intros HR Hr. apply in_charge_iff; [done|]. split; [by eapply guard_loading|]. left. unfold keeps. simpl. by rewrite Hr.
Qed.
Lemma guard_alone y l a : Reach y → role y l a = QGuard → waiting_on y l = [] → ∀ b, ¬ waiting (y_log y) l b.
Proof.
  intros HR Hr Hw b Hb. apply waiting_iff in Hb as (t & Hb & Hf); [|done].
  pose proof (ci_load _ _ _ _ _ (rc_c _ HR) l) as HL. pose proof (guard_loading _ _ _ HR Hr) as Hld.
  destruct (l_reg _ HL b t Hb Hf) as [H|[c H]]; [simpl in H; rewrite Hw in H; by apply elem_of_nil in H|].
  unfold pend in H. simpl in H. destruct (role y l c) eqn:E; try by apply elem_of_nil in H.
  - assert (c = a) as ->; [|congruence]. apply (l_one _ HL Hld); unfold owns; simpl; [by rewrite E|by rewrite Hr].
  - eapply (l_notail _ HL Hld c v). unfold Proto.tail. simpl. by rewrite E.
Qed.
Lemma fill_alone y l a v v' : Reach y → role y l a = QFill v → (a, EvPut l v') ∈ y_log y → ∀ b, ¬ waiting (y_log y) l b.
Proof.
  intros HR Hr Hp b Hb. apply waiting_iff in Hb as (t & Hb & Hf); [|done].
  pose proof (ci_load _ _ _ _ _ (rc_c _ HR) l) as HL. assert (at_load y l = Inserted v') as Hld by (apply (l_put _ HL); by exists a).
  destruct (l_reg _ HL b t Hb Hf) as [H|[c H]]; [destruct (l_ins _ HL _ Hld) as [Hw _]; rewrite Hw in H; by apply elem_of_nil in H|].
  unfold pend in H. simpl in H. destruct (role y l c) eqn:E; try by apply elem_of_nil in H.
  - eapply (l_insg _ HL _ Hld c). unfold guardish. simpl. by rewrite E.
  - assert (c = a) as ->; [|congruence]. eapply (l_tail1 _ HL); unfold Proto.tail; simpl; [by rewrite E|by rewrite Hr].
Qed.
Lemma loading_charge y l : Reach y → at_load y l = Loading → (∃ a, role y l a ≠ QNone) → ∃ b, in_charge (y_log y) l b.
Proof.
  intros HR Hld [a Ha]. pose proof (ci_load _ _ _ _ _ (rc_c _ HR) l) as HL.
  assert (v_on (lview y l) = true) as Hon.
  { destruct (v_on (lview y l)) eqn:E; [done|]. destruct (l_off _ HL E) as (_ & _ & _ & H). by destruct (Ha (H a)). }
  destruct (l_owner _ HL Hld Hon) as [b Hb]. unfold owns in Hb. simpl in Hb.
  destruct (role y l b) as [| |t| | |[c t]| |] eqn:E; try done; try (exists b; apply in_charge_iff; [done|]; split; [done|]; left; unfold keeps; simpl; by rewrite E).
  exists c. apply in_charge_iff; [done|]. split; [done|]. right. by exists b, t.
Qed.

(* ---- one more event ---- *)
Definition bland (ev : cevent P) : bool :=
  match ev with EvSec _ (OJoin _) (SNew _) | EvPut _ _ | EvGive _ _ | EvEnd _ => false | _ => true end.
Lemma trusted_more g a ev l b : bland ev = true ∨ (∃ l, ev = EvEnd l) → trusted (g ++ [(a, ev)]) l b ↔ trusted g l b.
Proof.
  intros Hb. unfold trusted. split; (intros [[k H]|[c H]]; [left; exists k|right; exists c]).
  1, 2: apply elem_of_app in H as [H|H]; [done|]; apply elem_of_list_singleton in H; injection H as _ <-; destruct Hb as [?|[? ?]]; done.
  all: apply elem_of_app; by left.
Qed.
Lemma settled_more g a ev l b : settled g l b → settled (g ++ [(a, ev)]) l b.
Proof. intros [[v H]|[[c H]|H]]; [left; exists v|right; left; exists c|right; right]; apply elem_of_app; by left. Qed.
Lemma settled_less g a ev l b : bland ev = true → settled (g ++ [(a, ev)]) l b → settled g l b.
Proof.
  intros Hb [[v H]|[[c H]|H]]; [left; exists v|right; left; exists c|right; right];
    (apply elem_of_app in H as [H|H]; [done|]); apply elem_of_list_singleton in H; injection H as _ <-; done.
Qed.
Lemma charge_more g a ev l b : bland ev = true → in_charge (g ++ [(a, ev)]) l b ↔ in_charge g l b.
Proof.
  intros Hb. unfold in_charge. rewrite trusted_more by auto. split; intros [H1 H2]; (split; [done|]); intros H; apply H2; [by apply settled_more|by eapply settled_less].
Qed.
Definition unheard (ev : cevent P) : bool := match ev with EvWait _ | EvNote _ | EvRet _ => false | _ => true end.
Lemma waiting_more g a e1 l b : forallb unheard e1 = true → waiting (g ++ map (pair a) e1) l b → waiting g l b.
Proof.
  rewrite forallb_forall. intros He (H1 & H2 & H3).
  apply elem_of_app in H1 as [H1|H1]; [|apply elem_of_list_fmap in H1 as (ev & [= -> <-] & H1); apply elem_of_list_In, He in H1; done].
  split_and!; [done| |].
  - intros [c H]. apply H2. exists c. apply elem_of_app. by left.
  - intros [c H]. apply H3. exists c. apply elem_of_app. by left.
Qed.

(* ---- a call returns ---- *)
Lemma put_hist mask n c x h l v : hpc mask n c x h → EvPut l v ∈ h → is_done x = false → role_pc l x = QFill v ∨ ∃ ws, role_pc l x = QNote v ws.
Proof.
  intros H Hin Hd.
  assert (∀ h0, hushed h0 = true → EvPut l v ∉ h0) as Hh by (intros h0 H0 H1; apply (hushed_in _ _ H0) in H1; done).
  destruct x; try discriminate Hd; simpl in H;
    unhist H; subst; try (by exfalso; eapply Hh; [|exact Hin]);
    try (by exfalso; eapply Hh; [eapply guarded_hushed; eassumption|exact Hin]); try (by exfalso; eapply Hh; [eapply guardian_hushed; eassumption|exact Hin]).
  1,2: apply elem_of_cons in Hin as [Hin|Hin]; [done|]; apply elem_of_list_fmap in Hin as (? & ? & _); done.
  all: apply elem_of_app in Hin as [Hin|Hin]; [exfalso; first [by eapply Hh; [eapply guarded_hushed; eassumption|exact Hin] | by eapply Hh; [eapply guardian_hushed; eassumption|exact Hin]]|].
  all: apply elem_of_list_singleton in Hin; try discriminate Hin; injection Hin as -> ->; unfold role_pc; simpl; rewrite decide_True by done; eauto.
Qed.
Definition closing (ev : cevent P) : bool := match ev with EvSec _ (OJoin _) (SNew _) => false | EvSec _ _ _ | EvEnd _ => true | _ => false end.
Lemma mv_ret dbg y a ag x x' es us r : mv dbg y a ag x x' es us → EvRet r ∈ es →
  ∃ e1, es = e1 ++ [EvRet r] ∧ x' = ADone r ∧ forallb closing e1 = true ∧ ∀ l v ws, role_pc l x ≠ QNote v ws.
Proof.
  intros M Hin. destruct M; try (by evs Hin).
  all: repeat match type of Hin with _ ∈ _ :: _ => apply elem_of_cons in Hin as [Hin|Hin]; [try discriminate Hin|] | _ ∈ [] => by apply elem_of_nil in Hin end;
    try injection Hin as ->.
  all: try (eexists []; split_and!; [done|done|done|]; intros l0 v0 ws0; unfold role_pc; simpl; try case_decide; done).
  all: try (eexists [_]; split_and!; [done|done|done|]; intros l0 v0 ws0; unfold role_pc; simpl; try case_decide; done).
  all: try (eexists [_; _]; split_and!; [done|done|done|]; intros l0 v0 ws0; unfold role_pc; simpl; try case_decide; done).
Qed.
End conclog.
