(* get_or_insert_with and get_or_insert_async in concurrent use: who ran the closure, who was told what. *)
From stdpp Require Import prelude list functions.
From Verif Require Export LoadSpec ConcLast.

Local Ltac inl H := repeat match type of H with
  | _ ∈ _ :: _ => apply elem_of_cons in H as [H|H]; [try (discriminate H)|]
  | _ ∈ [] => by apply elem_of_nil in H
  end.

Section concload.
Context {P : Params} (LW : Lawful P) (PI : ptr_ids P = true).
Context {budget ghosts cap e : N}.
Notation K := (K P). Notation V := (V P). Notation RS := (RS P).
Notation shard := (shard P). Notation sys := (sys P). Notation pc := (pc P). Notation agent := (agent P).
Notation CInv := (CInv budget ghosts cap e). Notation Reach := (@Reach P (full P) budget ghosts cap e).
Implicit Types (s : shard) (k : K) (v : V) (rs : RS) (p : plh) (a b : nat) (l : loc) (j : nat) (y : sys) (x : pc) (ag : agent).
Implicit Types (c : call P) (h : list (cevent P)) (g es : list (nat * cevent P)).

(* ---- who provides a value ran the closure ---- *)
Lemma guarded_facts j c k id h : guarded j c k id h →
  EvGuard (j, id) ∈ h ∧ (EvSec j (OJoin k) (SNew id) ∈ h ∨ EvSec j (OJoin k) (SWait id) ∈ h).
Proof. intros [|]; unfold began, queued, asked; simpl; rewrite !elem_of_cons; auto 10. Qed.
Lemma put_guarded mask n c x h l v : hpc mask n c x h → EvPut l v ∈ h →
  ∃ k, loads_key c = Some k ∧ EvGuard l ∈ h ∧ (EvSec l.1 (OJoin k) (SNew l.2) ∈ h ∨ EvSec l.1 (OJoin k) (SWait l.2) ∈ h).
Proof.
  intros H Hin. assert (∀ h0, hushed h0 = true → EvPut l v ∉ h0) as Hh by (intros h0 H0 H1; apply (hushed_in _ _ H0) in H1; done).
  assert (∀ j k id h0 h1, guarded j c k id h0 → (EvPut l v ∈ h1 → l = (j, id)) → loads_key c = Some k → EvPut l v ∈ h0 ++ h1 →
    ∃ k, loads_key c = Some k ∧ EvGuard l ∈ h0 ++ h1 ∧ (EvSec l.1 (OJoin k) (SNew l.2) ∈ h0 ++ h1 ∨ EvSec l.1 (OJoin k) (SWait l.2) ∈ h0 ++ h1)) as Hg.
  { intros j k id h0 h1 G He Hk Hi. apply elem_of_app in Hi as [Hi|Hi]; [by exfalso; eapply Hh; [eapply guarded_hushed; eassumption|exact Hi]|].
    rewrite (He Hi). simpl. exists k. destruct (guarded_facts _ _ _ _ _ G) as [H1 H2]. rewrite !elem_of_app. split; [done|]. split; [by left|]. destruct H2; auto. }
  destruct (is_done x) eqn:Ed.
  - destruct x; try done. simpl in H. destruct H as (h0 & Hl & ->). apply elem_of_app in Hin as [Hin|Hin]; [|apply elem_of_list_singleton in Hin; done].
    destruct Hl; try (exfalso; rewrite ?elem_of_app in Hin; destruct_or?; (by eapply Hh; [|exact Hin])).
    + exfalso. apply elem_of_cons in Hin as [Hin|Hin]; [done|]. apply elem_of_list_fmap in Hin as (? & ? & _); done.
    + exfalso. apply elem_of_app in Hin as [Hin|Hin]; [by eapply Hh; [|exact Hin]|]. destruct H; inl Hin.
    + rewrite <-!app_assoc. eapply Hg; [done| |done|rewrite !elem_of_app in *; simpl; rewrite ?elem_of_cons in *; tauto].
      intros Hi. simpl in Hi. inl Hi. by injection Hi.
    + rewrite <-!app_assoc. eapply Hg; [done| |done|rewrite !elem_of_app in *; simpl; rewrite ?elem_of_cons in *; tauto].
      intros Hi. simpl in Hi. inl Hi. by injection Hi.
    + exfalso. apply elem_of_app in Hin as [Hin|Hin]; [by eapply Hh; [eapply guarded_hushed; eassumption|exact Hin]|]. destruct H1; inl Hin.
  - destruct (put_hist _ _ _ _ _ _ _ H Hin Ed) as [Hr|[ws Hr]]; unfold role_pc in Hr; destruct x; simpl in *; try done; try case_decide; try done;
      try (destruct nm; simpl in *; try (match type of Hr with context [match ?z with [] => _ | _ :: _ => _ end] => destruct z end); try case_decide; try done);
      destruct H as (k & h0 & Hk & _ & G & ->); subst; (eapply Hg; [exact G|intros Hi; inl Hi; by injection Hi|done|done]).
Qed.
Lemma put_who y b l v : Reach y → (b, EvPut l v) ∈ y_log y → ∃ bg k, y_agents y !! b = Some bg ∧ loads_key (a_call bg) = Some k ∧
  (b, EvGuard l) ∈ y_log y ∧ ((b, EvSec l.1 (OJoin k) (SNew l.2)) ∈ y_log y ∨ (b, EvSec l.1 (OJoin k) (SWait l.2)) ∈ y_log y).
Proof.
  intros HR Hin. pose proof (hi_log _ (rc_h _ HR) _ _ Hin) as Hlt. apply lookup_lt_is_Some in Hlt as [bg Hb].
  apply hist_in in Hin; [|done]. destruct (put_guarded _ _ _ _ _ _ _ (hi_agent _ (rc_h _ HR) _ _ Hb) Hin) as (k & Hk & H1 & H2).
  exists bg, k. split_and!; [done|done|by apply hist_in|]. destruct H2; [left|right]; by apply hist_in.
Qed.

(* ---- the closure is called at most once ---- *)
Definition is_guard (ev : cevent P) : bool := match ev with EvGuard _ => true | _ => false end.
Definition nguard h : nat := length (List.filter is_guard h).
Lemma nguard_app h1 h2 : nguard (h1 ++ h2) = nguard h1 + nguard h2.
Proof. unfold nguard. by rewrite List.filter_app, app_length. Qed.
Lemma nguard_all m i : nguard (map (all_ev (P:=P) m) i) = 0.
Proof. unfold nguard. by induction i. Qed.
Lemma nguard_guarded j c k id h : guarded j c k id h → nguard h = 1.
Proof. by intros [|]. Qed.
Lemma nguard_guardian j c k id h : guardian j c k id h → nguard h ≤ 1.
Proof. intros [H|[_ ->]]; [by rewrite (nguard_guarded _ _ _ _ _ H)|unfold nguard; simpl; lia]. Qed.
Lemma nguard_dropped j id h : dropped (P:=P) j id h → nguard h = 0.
Proof. by intros [|]. Qed.
Lemma nguard_life mask n c h r : life mask n c h r → nguard h ≤ 1.
Proof.
  intros H. destruct H; rewrite ?nguard_app; try match goal with H : guarded _ _ _ _ _ |- _ => rewrite (nguard_guarded _ _ _ _ _ H) end;
    try match goal with H : dropped _ _ _ |- _ => rewrite (nguard_dropped _ _ _ H) end; try (unfold nguard; simpl; lia).
  change (nguard (map (all_ev m) (seq 0 n)) ≤ 1). rewrite nguard_all. lia.
Qed.
Lemma nguard_hpc mask n c x h : hpc mask n c x h → nguard h ≤ 1.
Proof.
  intros H. destruct x; simpl in H;
    try (destruct nm; simpl in H); try (destruct sm; simpl in H);
    repeat match goal with
    | H : ∃ _, _ |- _ => destruct H as [? H]
    | H : _ ∧ _ |- _ => destruct H as [? H]
    end; try subst h; rewrite ?nguard_app;
    try match goal with H : guarded _ _ _ _ _ |- _ => pose proof (nguard_guarded _ _ _ _ _ H) end;
    try match goal with H : guardian _ _ _ _ _ |- _ => pose proof (nguard_guardian _ _ _ _ _ H) end;
    try match goal with H : life _ _ _ _ _ |- _ => pose proof (nguard_life _ _ _ _ _ H) end; try (unfold nguard in *; simpl in *; lia).
  - change (nguard (map (all_ev m) (seq 0 x)) ≤ 1). rewrite nguard_all. lia.
  - change (nguard (map (all_ev m) (seq 0 j)) ≤ 1). rewrite nguard_all. lia.
Qed.
Lemma guard_once y g1 a l1 g2 l2 g3 : Reach y → y_log y = g1 ++ (a, EvGuard l1) :: g2 ++ (a, EvGuard l2) :: g3 → False.
Proof.
  intros HR E. assert ((a, EvGuard l1) ∈ y_log y) as Hin by (rewrite E; apply elem_of_app; right; left).
  pose proof (hi_log _ (rc_h _ HR) _ _ Hin) as Hlt. apply lookup_lt_is_Some in Hlt as [ag Ha].
  pose proof (nguard_hpc _ _ _ _ _ (hi_agent _ (rc_h _ HR) _ _ Ha)) as Hn. rewrite E, hist_app, hist_cons, hist_app, hist_cons, !nguard_app in Hn.
  unfold mine in Hn; simpl in Hn. rewrite !decide_True in Hn by done. unfold nguard in Hn. simpl in Hn. lia.
Qed.

(* ---- who gives up ---- *)
Definition quitting x : bool :=
  match x with
  | FDrop _ _ | FDropS _ _ | FDropIn _ _ | SWant _ _ SDropFut | SIn _ _ SDropFut | DWant _ _ | DS _ _ | DIn _ _
  | NGo _ _ _ NDrop | NUnpark _ _ _ _ NDrop | NTask _ _ _ _ NDrop | ADone RetDrop | ADone RetCancel => true
  | _ => false
  end.
(* its guard was dropped, or its future, and then it had no guard *)
Definition gone (ls : list (label P)) g a : Prop := (DropG a ∈ ls ∧ ran g a) ∨ (DropFut a ∈ ls ∧ ¬ ran g a).
Record quits (ls : list (label P)) y : Prop := {
  qu_pc : ∀ a ag, y_agents y !! a = Some ag → quitting (a_pc ag) = true → gone ls (y_log y) a;
  qu_give : ∀ a l b, (a, EvGive l b) ∈ y_log y → ∃ ag, y_agents y !! a = Some ag ∧ quitting (a_pc ag) = true;
}.
Lemma mv_quit dbg y a ag x x' h us : mv dbg y a ag x x' h us →
  (quitting x' = quitting x) ∧ (quitting x = true → ∀ l, EvGuard l ∉ h) ∧ (∀ l b, EvGive l b ∈ h → quitting x = true).
Proof.
  intros M. destruct M as
    [x w Hw Hf|j m o|m|m j js|j k gc i v x0 Hx0|j k gc|j i v gc|j v gc r Hr|j k|j k to|j k wk
    |j k md v|j k md p x0 es0 Hs|j k md p|j p sm|j p md Hl|j p md v Hl|j p to|j p tm Ht|j p tm Hfl|j p Hfl
    |j p st to d Hfl|j p st to Hlt|j p st to Hle|j p Hfl|j p Hfl Hin|j p x0 es0 Hl Hs|j p v Hl|j p wk Hfl|j p wk Hfl
    |j p x0 es0 Hfl Hl Hs|j p Hfl Hl|j p Hfl Hin|j p rs v wl ws ref Hws|j p rs v wl ref|j p|j p b ws nm|j p b ws nm|j p b ws nm
    |j p rs v wl ref o|j p rs v wl ref|j p w Hl Hld|j p Hl]; simpl;
    try (split; [done|]; split; [intros _ l Hi; by inl Hi|intros l b0 Hi; by inl Hi]).
  - split; [|split; [intros _ l Hi; by inl Hi|intros l b0 Hi; by inl Hi]]. destruct x; try done; simpl in *; [by destruct js|].
    destruct ws as [|[? [|]] ?]; try done.
  - split; [by destruct Hx0 as [-> | ->]|]. split; [done|intros l b0 Hi; by inl Hi].
  - split; [|split; [intros _ l Hi; by inl Hi|intros l b0 Hi; by inl Hi]]. destruct gc; by subst r.
  - split; [by destruct Hs|]. split; [done|]. intros l b0 Hi. inl Hi. by apply (starts_ev _ _ _ _ _ _ _ Hs) in Hi as (Hi & _).
  - split; [by destruct sm|]. split; [destruct sm; try done; intros _ l Hi; simpl in Hi; by inl Hi|]. intros l b0 Hi. by apply guarded_ev_in in Hi.
  - split; [by destruct md as [[]|]|]. split; [done|intros l b0 Hi; by inl Hi].
  - split; [by destruct Hs|]. split; [done|]. intros l b0 Hi. by apply (starts_ev _ _ _ _ _ _ _ Hs) in Hi as (Hi & _).
  - split; [by destruct Hs|]. split; [|done]. intros _ l Hi. apply (starts_ev _ _ _ _ _ _ _ Hs) in Hi as (_ & Hi & _). done.
Qed.
Lemma gone_more ls lb g a z : gone ls g a → (∀ l, (a, EvGuard l) ∉ z) → gone (ls ++ [lb]) (g ++ z) a.
Proof.
  intros [[H [l Hl]]|[H Hn]] Hz; [left; split; [|exists l]; apply elem_of_app; by left|right]. split; [apply elem_of_app; by left|].
  intros [l Hl]. apply elem_of_app in Hl as [Hl|Hl]; [apply Hn; by exists l|by eapply Hz].
Qed.
Lemma quits_step dbg ls y lb y' : Reach y → quits ls y → stepped dbg y y' lb → quits (ls ++ [lb]) y'.
Proof.
  intros HR [I1 I2] Hs. destruct Hs as [a ag x' h us Ha M Hmv|lb a ag x' h Ha X Hmv|c x Hx ->|d ->].
  - destruct (mv_quit _ _ _ _ _ _ _ _ M) as (Q1 & Q2 & Q3).
    assert (∀ b bg, y_agents y !! b = Some bg → ∃ bg', y_agents y' !! b = Some bg' ∧ (quitting (a_pc bg) = true → quitting (a_pc bg') = true)) as Hf.
    { intros b bg Hb. assert (b < length (y_agents y')) as Hlt.
      { rewrite (md_agents _ _ _ _ _ _ Hmv), alter_length. assert (∀ us (z : list agent), length (effs (P:=P) us z) = length z) as ->.
        { intros us0. induction us0 as [|u us0 IH]; intros l0; [done|]. unfold effs in *. simpl. by rewrite IH, alter_length. } by apply lookup_lt_Some in Hb. }
      apply lookup_lt_is_Some in Hlt as [bg' Hb']. exists bg'. split; [done|].
      destruct (md_case _ _ _ _ _ _ _ _ _ Hmv Ha Hb') as (bg0 & Hbg & _ & _ & _ & _ & _ & _ & [(-> & -> & E)|[Hne E]]); rewrite E; simplify_eq; [by rewrite Q1|done]. }
    split.
    + intros b bg' Hb Hq. rewrite (md_log _ _ _ _ _ _ Hmv).
      destruct (md_case _ _ _ _ _ _ _ _ _ Hmv Ha Hb) as (bg & Hbg & _ & _ & _ & _ & _ & _ & [(-> & -> & E)|[Hne E]]); rewrite E in Hq.
      * rewrite Q1 in Hq. apply gone_more; [by eapply I1|]. intros l Hl. apply elem_of_list_fmap in Hl as (ev & [= <-] & Hl). by eapply Q2.
      * apply gone_more; [by eapply I1|]. intros l Hl. apply elem_of_list_fmap in Hl as (ev & [= ? _] & _). done.
    + intros b l d Hin. rewrite (md_log _ _ _ _ _ _ Hmv) in Hin. apply elem_of_app in Hin as [Hin|Hin].
      * destruct (I2 _ _ _ Hin) as (bg & Hb & Hq). destruct (Hf _ _ Hb) as (bg' & Hb' & Hq'). eauto.
      * apply elem_of_list_fmap in Hin as (ev & [= -> <-] & Hin). destruct (Hf _ _ Ha) as (bg' & Hb' & Hq'). exists bg'. split; [done|]. by eapply Hq', Q3.
  - assert (∀ ev, ev ∈ h → ev = EvRet RetCancel) as Hev by (intros ev; by eapply ext_events).
    assert (quitting (a_pc ag) = false) as Hq0 by by destruct X.
    assert (∀ b l, (b, EvGuard l) ∉ map (pair a) h) as Hng by (intros b l Hl; apply elem_of_list_fmap in Hl as (ev & [= -> <-] & Hl); by apply Hev in Hl).
    split.
    + intros b bg' Hb Hq. rewrite (md_log _ _ _ _ _ _ Hmv).
      destruct (md_case _ _ _ _ _ _ _ _ _ Hmv Ha Hb) as (bg & Hbg & _ & _ & _ & _ & _ & _ & [(-> & -> & E)|[Hne E]]); rewrite E in Hq; [|by apply gone_more; [by eapply I1|]].
      pose proof (hi_agent _ (rc_h _ HR) _ _ Ha) as Hh.
      assert (lb = DropFut a → (∀ l, EvGuard l ∉ hist (y_log y) a) → gone (ls ++ [lb]) (y_log y ++ map (pair a) h) a) as Hd.
      { intros -> Hn. right. split; [apply elem_of_app; right; by left|]. intros [l Hl]. apply elem_of_app in Hl as [Hl|Hl]; [|by eapply Hng].
        apply (Hn l). by apply hist_in. }
      destruct X; try done; simpl in Hh.
      * apply Hd; [done|]. destruct Hh as (_ & _ & Hh). rewrite Hh. intros l Hl. by inl Hl.
      * apply Hd; [done|]. destruct Hh as (k & _ & _ & Hh). rewrite Hh. intros l Hl. unfold queued, asked in Hl; simpl in Hl. by inl Hl.
      * left. split; [apply elem_of_app; right; by left|]. destruct Hh as (k & _ & _ & G). apply guarded_facts in G as [G _]. eexists. apply elem_of_app. left. by apply hist_in.
    + intros b l d Hin. rewrite (md_log _ _ _ _ _ _ Hmv) in Hin. apply elem_of_app in Hin as [Hin|Hin].
      * destruct (I2 _ _ _ Hin) as (bg & Hb & Hq). exists bg. split; [|done]. rewrite (md_agents _ _ _ _ _ _ Hmv). simpl.
        destruct (decide (a = b)) as [->|]; [|by rewrite list_lookup_alter_ne]. simplify_eq. congruence.
      * apply elem_of_list_fmap in Hin as (ev & [= -> <-] & Hin). by apply Hev in Hin.
  - split; simpl.
    + intros b bg Hb Hq. apply lookup_app_Some in Hb as [Hb|[_ Hb]].
      * apply gone_more; [by eapply I1|]. intros l Hl. apply elem_of_list_singleton in Hl. done.
      * destruct (b - length (y_agents y)); [|done]. injection Hb as <-. simpl in Hq. exfalso. unfold first_pc in Hx.
        destruct c; simpl in Hx.
        -- destruct (sync_cmd m); [|done]. destruct (key_of m) as [k|]; [|by injection Hx as <-].
           destruct (shard_for (y_cache y) k); [|done]. cbn in Hx. injection Hx as <-. by destruct m.
        -- destruct (shard_for (y_cache y) k); [|done]. cbn in Hx. by injection Hx as <-.
        -- destruct (shard_for (y_cache y) k); [|done]. cbn in Hx. by injection Hx as <-.
    + intros b l d Hin. apply snoc_in in Hin as [Hin|Hin]; [|done]. destruct (I2 _ _ _ Hin) as (bg & Hb & Hq). exists bg. split; [|done]. by apply lookup_app_l_Some.
  - split; simpl; [|done]. intros b bg Hb Hq. rewrite <-(app_nil_r (y_log y)). apply gone_more; [by eapply I1|by intros ? ?%elem_of_nil].
Qed.
Lemma quits_all dbg ls y : execution dbg budget ghosts cap e ls y → quits ls y.
Proof.
  unfold execution. intros H. remember (sys_new budget ghosts cap e) as y0. induction H as [|y0 ls y1 lb y2 H IH Hs].
  - subst. split; simpl; [done|by intros ? ? ? ?%elem_of_nil].
  - subst. specialize (IH eq_refl). pose proof (reach LW PI _ _ _ H) as HR. eapply quits_step; [exact HR|done|]. eapply (cstep_stepped LW PI); [|done]. by eapply (rc_c _ HR).
Qed.
Lemma gone_failed w ls g a : closures w ls → gone ls g a → failed w ls g a.
Proof. intros Hw [[H1 H2]|H]; [left|by right]. split; [done|]. unfold closures in Hw. rewrite Forall_forall in Hw. apply (Hw _ H1). Qed.

(* ---- a load is found only while it is pending ---- *)
Notation legal := (legal cap budget).
Lemma new_split (h h1 h2 h3 h4 : list (sop P * sres P)) d id k1 k2 : legal h d → h = h1 ++ (OJoin k1, SNew id) :: h2 → h = h3 ++ (OJoin k2, SNew id) :: h4 →
  h1 = h3 ∧ k1 = k2 ∧ h2 = h4.
Proof.
  intros HL E1 E2. destruct (legal_once _ _ HL id k1 k2 _ _ E1) as (N1 & _ & N2). destruct (legal_once _ _ HL id k2 k1 _ _ E2) as (N3 & _ & N4).
  rewrite E2 in E1. clear -N1 N2 N3 N4 E1. revert h3 E1 N3. induction h1 as [|z h1 IH]; intros h3 E N3.
  - destruct h3 as [|z h3]; [by injection E as -> ->|]. simpl in E. injection E as -> E. destruct N3. left.
  - destruct h3 as [|z' h3]; simpl in E; injection E as <- E; [destruct N1; left|]. destruct (IH (λ H, N1 (elem_of_list_further _ _ _ H)) h3 E) as (-> & -> & ->); [|done].
    intros H. apply N3. by right.
Qed.
Lemma new_one y a b j k1 k2 id : Reach y → (a, EvSec j (OJoin k1) (SNew id)) ∈ y_log y → (b, EvSec j (OJoin k2) (SNew id)) ∈ y_log y → k1 = k2.
Proof.
  intros HR H1 H2. destruct (join_shard _ _ _ _ _ HR H1) as [_ Hlt]. destruct (legal_at y j HR Hlt) as (s & d & _ & HL & _).
  assert ((OJoin k1, SNew id) ∈ sections j (y_log y)) as (h1 & h2 & E1)%elem_of_list_split by (apply in_sections; by exists a).
  assert ((OJoin k2, SNew id) ∈ sections j (y_log y)) as (h3 & h4 & E2)%elem_of_list_split by (apply in_sections; by exists b).
  by destruct (new_split _ _ _ _ _ _ _ _ _ HL E1 E2) as (_ & -> & _).
Qed.
Lemma same_key y a b j k kb id : Reach y → (a, EvSec j (OJoin k) (SWait id)) ∈ y_log y →
  (b, EvSec j (OJoin kb) (SNew id)) ∈ y_log y ∨ (b, EvSec j (OJoin kb) (SWait id)) ∈ y_log y → keqb P kb k = true.
Proof.
  intros HR Ha Hb. destruct (join_key _ _ _ _ _ HR Ha) as (a1 & k1 & H1 & E1). apply (keqb_sym _ LW) in E1. destruct Hb as [Hb|Hb].
  - by rewrite (new_one _ _ _ _ _ _ _ HR Hb H1).
  - destruct (join_key _ _ _ _ _ HR Hb) as (b1 & k2 & H2 & E2). rewrite (new_one _ _ _ _ _ _ _ HR H2 H1) in E2. by eapply (keqb_trans _ LW).
Qed.
Lemma fill_before_join y g1 a b j k id rs v wl r g2 : Reach y → GInv y → y_log y = g1 ++ (a, EvSec j (OJoin k) (SWait id)) :: g2 →
  (b, EvSec j (OFill rs id v wl) r) ∈ g1 → False.
Proof.
  intros HR HG E Hf. apply elem_of_list_split in Hf as (ga & gb & ->).
  destruct (fill_started y ga b j rs id v wl r (gb ++ (a, EvSec j (OJoin k) (SWait id)) :: g2) HG) as (gc & b1 & k0 & gd & ->); [by rewrite E, <-app_assoc|].
  assert ((a, EvSec j (OJoin k) (SWait id)) ∈ y_log y) as Hin by (rewrite E; apply elem_of_app; right; left).
  destruct (join_shard _ _ _ _ _ HR Hin) as [_ Hlt]. destruct (legal_at y j HR Hlt) as (s & d & _ & HL & _).
  rewrite E, sections_app, sections_cons, sec_of_same in HL. apply legal_mid in HL as (d0 & d1 & HL & Hs & _).
  destruct d0 as [c0 p0 n0], d1 as [c1 p1 n1]. simpl in Hs. destruct Hs as (_ & (k' & Hk' & _) & _).
  pose proof (legal_pending _ _ HL id k') as Hp. apply Hp in Hk' as (h1 & h2 & Eh & Hno). clear Hp.
  rewrite !sections_app, !sections_cons, !sec_of_same in HL, Eh. simpl in HL, Eh. rewrite <-app_assoc in HL, Eh. simpl in HL, Eh.
  destruct (new_split _ _ _ _ _ _ _ _ _ HL eq_refl Eh) as (<- & <- & <-).
  apply Forall_app in Hno as [Hno1 Hno2]. apply Forall_cons in Hno2 as [Hno2 _].
  rewrite app_comm_cons, app_assoc in HL. apply legal_mid in HL as (d2 & d3 & HL2 & Hs2 & _). simpl in Hs2.
  destruct d2 as [c2 p2 n2], d3 as [c3 p3 n3]. destruct r; simpl in Hs2; try done.
  destruct Hs2 as (Hs2 & _). pose proof (legal_pending _ _ HL2 id k0) as [_ Hp]. simpl in Hp. rewrite Hp in Hs2; [done|]. eauto.
Qed.
(* whoever provided the value to the load that a found had not returned when a was called *)
Lemma put_overlaps y a b l v k : Reach y → GInv y → (b, EvPut l v) ∈ y_log y → (a, EvSec l.1 (OJoin k) (SWait l.2)) ∈ y_log y →
  not_before (y_log y) a b.
Proof.
  intros HR HG Hp Hj g1 c g2 E [r Hr].
  assert ((b, EvRet r) ∈ y_log y) as Hr0 by (rewrite E; apply elem_of_app; by left).
  destruct (returned_done _ _ HR (ex_intro _ r Hr0)) as (bg & r' & Hb & _ & Hr' & h & Hl & Eh).
  rewrite (returned_unique _ _ _ _ HR Hr' Hr0) in *. clear r' Hr'.
  assert (∃ rs wl z, (b, EvSec l.1 (OFill rs l.2 v wl) z) ∈ y_log y) as (rs & wl & z & Hf).
  { apply hist_in in Hp; [|done]. rewrite Eh in Hp. apply elem_of_app in Hp as [Hp|Hp]; [|by inl Hp].
    assert (∀ h0, hushed h0 = true → EvPut l v ∉ h0) as Hh by (intros h0 H0 H1; apply (hushed_in _ _ H0) in H1; done).
    destruct Hl; try (exfalso; rewrite ?elem_of_app in Hp; destruct_or?; (by eapply Hh; [|exact Hp])).
    - exfalso. apply elem_of_cons in Hp as [Hp|Hp]; [done|]. apply elem_of_list_fmap in Hp as (? & ? & _); done.
    - exfalso. apply elem_of_app in Hp as [Hp|Hp]; [by eapply Hh; [|exact Hp]|]. destruct H; by inl Hp.
    - apply elem_of_app in Hp as [Hp|Hp]; [by exfalso; eapply Hh; [eapply guarded_hushed; eassumption|exact Hp]|]. inl Hp. injection Hp as -> ->.
      eexists _, _, _. apply hist_in; [done|]. rewrite Eh. rewrite !elem_of_app, !elem_of_cons. simpl. left; right; right; left. done.
    - apply elem_of_app in Hp as [Hp|Hp]; [by exfalso; eapply Hh; [eapply guarded_hushed; eassumption|exact Hp]|]. inl Hp. injection Hp as -> ->.
      eexists _, _, _. apply hist_in; [done|]. rewrite Eh. rewrite !elem_of_app, !elem_of_cons. simpl. left; right; right; left. done.
    - exfalso. apply elem_of_app in Hp as [Hp|Hp]; [by eapply Hh; [eapply guarded_hushed; eassumption|exact Hp]|]. destruct H1; by inl Hp. }
  assert ((b, EvSec l.1 (OFill rs l.2 v wl) z) ∈ g1) as Hf1.
  { apply elem_of_list_split in Hr as (ga & gb & ->). rewrite <-app_assoc in E. simpl in E. rewrite E in Hf. apply elem_of_app in Hf as [Hf|Hf]; [apply elem_of_app; by left|].
    apply elem_of_cons in Hf as [Hf|Hf]; [done|]. by eapply after_return in Hf. }
  rewrite E in Hj. apply elem_of_app in Hj as [Hj|Hj]; [by eapply (gi_proper _ HG _ _ _ _ E)|]. apply elem_of_cons in Hj as [Hj|Hj]; [done|].
  apply elem_of_list_split in Hj as (ga & gb & ->). rewrite app_comm_cons, app_assoc in E.
  eapply (fill_before_join y _ a b); [done|done|exact E|]. apply elem_of_app. by left.
Qed.

(* ---- what a call answers ---- *)
Lemma answered w dbg ls y a ag k r : execution dbg budget ghosts cap e ls y → closures w ls →
  y_agents y !! a = Some ag → or_insert (a_call ag) k → (a, EvRet r) ∈ y_log y →
  match answer w a r with
  | Some v => (ran (y_log y) a ∧ w a = Some v) ∨
      (¬ ran (y_log y) a ∧ ((∃ b, b ≠ a ∧ computed_by w y b k v ∧ not_before (y_log y) a b) ∨ read_cached (y_log y) a k v))
  | None => failed w ls (y_log y) a
  end.
Proof.
  intros H Hw Ha Hk Hr. destruct (ginv LW PI _ _ _ H) as [HR HG].
  destruct (returned_done _ _ HR (ex_intro _ r Hr)) as (ag' & r' & Ha' & Hpc & Hr' & h & Hl & Eh). simplify_eq.
  rewrite (returned_unique _ _ _ _ HR Hr' Hr) in *. clear r' Hr'.
  assert (loads_key (a_call ag) = Some k) as Hlk by by destruct Hk as [-> | ->].
  pose proof (asks_all LW PI _ _ _ H) as HA. pose proof (quits_all _ _ _ H) as HQ. pose proof Hw as Hw0. unfold closures in Hw. rewrite Forall_forall in Hw.
  assert (∀ ev, not_note ev = true → (a, ev) ∈ y_log y ↔ ev ∈ h ∨ ev = EvRet r) as Hev.
  { intros ev Hn. rewrite (hist_in _ _ _ Hn), Eh, elem_of_app, elem_of_list_singleton. done. }
  assert (∀ v l, r = RetVal v (Some l) → ¬ ran (y_log y) a → ∃ b, b ≠ a ∧ computed_by w y b k v ∧ not_before (y_log y) a b) as Hval.
  { intros v l -> Hn. destruct (elem_of_list_split _ _ Hr) as (g1 & g2 & E). destruct (gi_proper _ HG _ _ _ _ E) as (_ & _ & _ & [b Hb] & _).
    assert ((b, EvPut l v) ∈ y_log y) as Hput by (rewrite E; apply elem_of_app; by left).
    destruct (put_who _ _ _ _ HR Hput) as (bg & kb & Hbg & Hkb & Hg & Hj). exists b.
    destruct (val_joined _ _ _ _ HR Hr) as (ag' & k' & Ha'' & Hk' & Hja). simplify_eq.
    split; [intros ->; apply Hn; by exists l|]. split; [|by eapply put_overlaps].
    exists bg, kb. split_and!; [done|done|by eapply same_key|by exists l|].
    destruct (as_put _ _ HA _ _ _ Hput) as (rs & wl & Hp). apply (Hw _ Hp). }
  assert (∀ j v ev, (a, ev) ∈ y_log y → ev = EvSec j (OCmd (CGet k)) (SO (plain (RVal (Some v)))) ∨ ev = EvSec j (OJoin k) (SHit v) → read_cached (y_log y) a k v) as Hread.
  { intros j v ev Hin Hc. apply elem_of_list_split in Hin as (g1 & g2 & E). exists g1, j, ev, g2. split; [done|]. split; [done|].
    eapply (read_source LW y g1 a j k v g2); [done|]. destruct Hc as [-> | ->]; auto. }
  assert ((∀ l, EvGuard l ∉ h) → ¬ ran (y_log y) a) as Hnran.
  { intros Hn [l Hl']. apply Hev in Hl' as [Hl'|Hl']; [by eapply Hn|done|done]. }
  assert (quitting (a_pc ag) = true → failed w ls (y_log y) a) as Hquit by (intros Hq; apply gone_failed; [done|]; by eapply (qu_pc _ _ HQ)).
  rewrite Hpc in Hquit.
  generalize dependent (a_call ag). intros c0 Hk Hl Hlk.
  destruct Hl as [m k0 o Hm|m Hm|c k0 v Hc|c k0 v Hc|c k0 id v Hc|c k0 id v Hc|k0 to id|k0|k0 id|k0 id h' Hd|c k0 id h' rs v wl o Hc Hg|c k0 id h' rs v wl Hc Hg|c k0 id h' h2 Hc Hg Hd];
    simpl in Hlk; simplify_eq; simpl.
  - right. split; [apply Hnran; intros l Hl; by inl Hl|]. right. eapply (Hread _ v (EvSec _ (OCmd (CGet _)) (SO (plain (RVal (Some v)))))); [apply Hev; [done|]; left; right; left|by left].
  - right. split; [apply Hnran; intros l Hl; unfold asked in Hl; simpl in Hl; by inl Hl|]. right.
    eapply (Hread _ v (EvSec _ (OJoin _) (SHit v))); [apply Hev; [done|]; left; right; right; left|by right].
  - right. assert (¬ ran (y_log y) a) as Hn by (apply Hnran; intros l Hl; unfold asked in Hl; simpl in Hl; by inl Hl).
    split; [done|]. left. by eapply Hval.
  - right. assert (¬ ran (y_log y) a) as Hn by (apply Hnran; intros l Hl; unfold queued, asked in Hl; simpl in Hl; by inl Hl).
    split; [done|]. left. by eapply Hval.
  - by destruct Hk.
  - by apply Hquit.
  - by apply Hquit.
  - by apply Hquit.
  - assert (w a = Some v) as Hv.
    { assert ((a, EvPut (shard_idx (sc_mask (y_cache y)) k0, id) v) ∈ y_log y) as Hp by (apply Hev; [done|]; left; rewrite elem_of_app, !elem_of_cons; auto).
      destruct (as_put _ _ HA _ _ _ Hp) as (rs' & wl' & Hp'). apply (Hw _ Hp'). }
    rewrite Hv. left. split; [|done]. eexists. apply Hev; [done|]. left. apply elem_of_app. left. by apply (guarded_facts _ _ _ _ _ Hg).
  - assert (w a = Some v) as Hv.
    { assert ((a, EvPut (shard_idx (sc_mask (y_cache y)) k0, id) v) ∈ y_log y) as Hp by (apply Hev; [done|]; left; rewrite elem_of_app, !elem_of_cons; auto).
      destruct (as_put _ _ HA _ _ _ Hp) as (rs' & wl' & Hp'). apply (Hw _ Hp'). }
    rewrite Hv. left. split; [|done]. eexists. apply Hev; [done|]. left. apply elem_of_app. left. by apply (guarded_facts _ _ _ _ _ Hg).
  - by apply Hquit.
Qed.
(* whoever asks for a load looked for the value before *)
Lemma join_asked mask n c x h j k r : hpc mask n c x h → EvSec j (OJoin k) r ∈ h → EvSec j (OCmd (CGet k)) (SO (plain (RVal None))) ∈ h.
Proof.
  intros H Hin.
  assert (∀ h0 h1, hushed h0 = true → EvSec j (OJoin k) r ∈ h1 ++ h0 → (EvSec j (OJoin k) r ∈ h0 → False) → EvSec j (OJoin k) r ∈ h1) as Hleft.
  { intros h0 h1 _ Hi Hn. apply elem_of_app in Hi as [Hi|Hi]; [done|]. by destruct (Hn Hi). }
  destruct x; simpl in H;
    repeat match goal with
    | H : ∃ _, _ |- _ => destruct H as [? H]
    | H : _ ∧ _ |- _ => destruct H
    | H : match ?z with _ => _ end |- _ => destruct z
    end; subst;
    try match goal with H : life _ _ _ _ _ |- _ => destruct H end;
    try match goal with H : guardian _ _ _ _ _ |- _ => destruct H as [H|[_ ->]] end;
    try match goal with H : guarded _ _ _ _ _ |- _ => destruct H end;
    try match goal with H : dropped _ _ _ |- _ => destruct H end;
    unfold began, queued, asked in *; simpl in *;
    try (inl Hin; injection Hin as <- <- <-; rewrite !elem_of_cons; by auto).
  all: exfalso; apply elem_of_cons in Hin as [Hin|Hin]; [done|]; rewrite ?elem_of_app in Hin; destruct_or?; try (by inl Hin);
    apply elem_of_list_fmap in Hin as (? & ? & _); done.
Qed.
(* why the closure of a was called *)
Lemma why_ran w dbg ls y a l : execution dbg budget ghosts cap e ls y → closures w ls → (a, EvGuard l) ∈ y_log y →
  ∃ ag k, y_agents y !! a = Some ag ∧ loads_key (a_call ag) = Some k ∧ (a, EvSec l.1 (OCmd (CGet k)) (SO (plain (RVal None)))) ∈ y_log y ∧
    ((a, EvSec l.1 (OJoin k) (SNew l.2)) ∈ y_log y ∨
     ∃ b bg kb, b ≠ a ∧ (b, EvGive l a) ∈ y_log y ∧ y_agents y !! b = Some bg ∧ loads_key (a_call bg) = Some kb ∧ keqb P kb k = true ∧ failed w ls (y_log y) b).
Proof.
  intros H Hw Hg. destruct (ginv LW PI _ _ _ H) as [HR HG].
  assert (∀ b ev, (b, ev) ∈ y_log y → about ev = Some l → ∃ bg kb, y_agents y !! b = Some bg ∧ loads_key (a_call bg) = Some kb ∧
    (b, EvSec l.1 (OCmd (CGet kb)) (SO (plain (RVal None)))) ∈ y_log y ∧
    ((b, EvSec l.1 (OJoin kb) (SNew l.2)) ∈ y_log y ∨ (b, EvSec l.1 (OJoin kb) (SWait l.2)) ∈ y_log y)) as Hj.
  { intros b ev Hin Hab. destruct l as [j id]. destruct (known_joined _ _ _ _ _ (rc_h _ HR) Hin Hab) as (kb & Hjo). simpl.
    assert (∃ r, (b, EvSec j (OJoin kb) r) ∈ y_log y ∧ (r = SNew id ∨ r = SWait id)) as (r & Hr & Hr').
    { destruct Hjo as [Hjo|Hjo]; eexists; (split; [by apply hist_in|auto]). }
    destruct (log_fits _ _ _ HR Hr eq_refl) as (bg & Hb & Hk & _). exists bg, kb. split_and!; [done|done| |destruct Hr' as [-> | ->]; auto].
    apply hist_in; [done|]. eapply join_asked; [by eapply (hi_agent _ (rc_h _ HR))|]. apply hist_in; [done|exact Hr]. }
  destruct (Hj _ _ Hg eq_refl) as (ag & k & Ha & Hk & Hget & Hjo). exists ag, k. split_and!; try done.
  destruct Hjo as [Hjo|Hjo]; [by left|]. destruct (guard_trusted _ _ _ HG Hg) as [[k1 Hn]|[b Hb]].
  - left. destruct (log_fits _ _ _ HR Hn eq_refl) as (ag' & Ha' & Hk' & _). simplify_eq. done.
  - right. destruct (Hj _ _ Hb eq_refl) as (bg & kb & Hbg & Hkb & _ & Hjb). exists b, bg, kb. split_and!; try done.
    + intros ->. apply elem_of_list_split in Hb as (g1 & g2 & E). destruct (gi_proper _ HG _ _ _ _ E) as (Hc & _ & Hnt). apply Hnt, Hc.
    + by eapply same_key.
    + apply gone_failed; [done|]. destruct (qu_give _ _ (quits_all _ _ _ H) _ _ _ Hb) as (bg' & Hb' & Hq). by eapply (qu_pc _ _ (quits_all _ _ _ H)).
Qed.

(* ---- two closures for one key at the same time ---- *)
Lemma cancels_cong m k k' : keqb P k k' = true → cancels budget m k → cancels budget m k'.
Proof. intros Hk H. destruct m; simpl in *; try done; try match type of H with _ ∧ _ => destruct H as [H ?]; split; [|done] end; eapply (keqb_trans _ LW); eassumption. Qed.
Lemma two_running y a ag ka la b bg kb lb : Reach y → GInv y → y_agents y !! a = Some ag → loads_key (a_call ag) = Some ka →
  y_agents y !! b = Some bg → loads_key (a_call bg) = Some kb → keqb P ka kb = true → guard_held y la a → guard_held y lb b → a ≠ b →
  ∃ g1 d k l g2, y_log y = g1 ++ (d, EvSec l.1 (OJoin k) (SNew l.2)) :: g2 ∧ (l = la ∨ l = lb) ∧ cancelled budget g2 l.1 ka.
Proof.
  intros HR HG Ha Hka Hb Hkb Hk Hga Hgb Hne.
  pose proof (guard_charge _ _ _ HR Hga) as Ca. pose proof (guard_charge _ _ _ HR Hgb) as Cb.
  assert (∀ z zg kz l, y_agents y !! z = Some zg → loads_key (a_call zg) = Some kz → guard_held y l z →
    ∃ d k, (d, EvSec l.1 (OJoin k) (SNew l.2)) ∈ y_log y ∧ keqb P k kz = true) as Hst.
  { intros z zg kz l Hz Hkz (zg' & j & p & Hz' & Hpc & ->). simplify_eq. pose proof (hi_agent _ (rc_h _ HR) _ _ Hz) as Hh. rewrite Hpc in Hh.
    destruct Hh as (k & Hk' & _ & G). rewrite Hkz in Hk'. injection Hk' as <-. destruct (guarded_facts _ _ _ _ _ G) as [_ [Hj|Hj]]; apply hist_in in Hj; try done.
    - exists z, kz. split; [done|]. apply (keqb_refl _ LW).
    - destruct (join_key _ _ _ _ _ HR Hj) as (c & k & H1 & H2). exists c, k. split; [done|]. by apply (keqb_sym _ LW). }
  destruct (Hst _ _ _ _ Ha Hka Hga) as (c1 & k1 & H1 & E1). destruct (Hst _ _ _ _ Hb Hkb Hgb) as (c2 & k2 & H2 & E2).
  assert (la ≠ lb) as Hl by (intros ->; apply Hne; by eapply (charge_one y lb)).
  assert (keqb P k1 k2 = true) as E12.
  { eapply (keqb_trans _ LW); [exact E1|]. eapply (keqb_trans _ LW); [exact Hk|]. by apply (keqb_sym _ LW). }
  destruct (elem_of_list_split _ _ H1) as (ga & gb & E). rewrite E in H2. apply elem_of_app in H2 as [H2|H2].
  - apply elem_of_list_split in H2 as (gc & gd & ->). exists gc, c2, k2, lb, (gd ++ (c1, EvSec la.1 (OJoin k1) (SNew la.2)) :: gb).
    rewrite <-app_assoc in E. simpl in E. split; [done|]. split; [by right|].
    destruct (per_key LW y gc c2 lb.1 k2 lb.2 gd c1 la.1 k1 la.2 gb b HR HG E) as (_ & d & m & o & Hin & Hc); [by apply (keqb_sym _ LW)|by destruct lb|].
    exists d, m, o. split; [apply elem_of_app; by left|]. eapply cancels_cong; [|exact Hc]. eapply (keqb_trans _ LW); [|exact E1]. by apply (keqb_sym _ LW).
  - apply elem_of_cons in H2 as [H2|H2]; [by injection H2; intros; destruct Hl; destruct la, lb; simpl in *; congruence|].
    apply elem_of_list_split in H2 as (gc & gd & ->). exists ga, c1, k1, la, (gc ++ (c2, EvSec lb.1 (OJoin k2) (SNew lb.2)) :: gd).
    split; [done|]. split; [by left|].
    destruct (per_key LW y ga c1 la.1 k1 la.2 gc c2 lb.1 k2 lb.2 gd a HR HG E E12) as (_ & d & m & o & Hin & Hc); [by destruct la|].
    exists d, m, o. split; [apply elem_of_app; by left|]. by eapply cancels_cong.
Qed.
(* ---- who waits for a value gets it ---- *)
Lemma coalesced w dbg ls y a b bg k l v r : execution dbg budget ghosts cap e ls y → closures w ls →
  y_agents y !! b = Some bg → or_insert (a_call bg) k → (a, EvPut l v) ∈ y_log y → (b, EvWait l) ∈ y_log y → a ≠ b → (b, EvRet r) ∈ y_log y →
  (answer w b r = Some v ∧ ¬ ran (y_log y) b) ∨ (answer w b r = None ∧ failed w ls (y_log y) b).
Proof.
  intros H Hw Hb Hk Hp Hwt Hne Hr. destruct (ginv LW PI _ _ _ H) as [HR HG]. pose proof (answered _ _ _ _ _ _ _ _ H Hw Hb Hk Hr) as HA.
  destruct (waiter_outcome _ _ _ _ HR HG Hwt Hr) as [(v' & a' & -> & Hp' & _)|[[[-> | ->] _]|Hs]].
  - destruct (put_one _ _ _ _ _ _ HG Hp' Hp) as [_ ->]. left. split; [done|]. simpl in HA.
    destruct (returned_done y b HR (ex_intro _ (RetVal v (Some l)) Hr)) as (bg' & r' & Hb' & _ & Hr' & h & Hl & Eh). rewrite (returned_unique _ _ _ _ HR Hr' Hr) in *.
    intros [l' Hg]. apply hist_in in Hg; [|done]. rewrite Eh in Hg. apply elem_of_app in Hg as [Hg|Hg]; [|by inl Hg].
    inversion Hl; subst; unfold queued, asked in Hg; simpl in Hg; by inl Hg.
  - right. split; [done|]. exact HA.
  - right. split; [done|]. exact HA.
  - destruct Hs as [[v' Hs]|[[d Hs]|Hs]].
    + by destruct (put_one _ _ _ _ _ _ HG Hp Hs) as [-> _].
    + right. destruct (qu_give _ _ (quits_all _ _ _ H) _ _ _ Hs) as (bg' & Hb' & Hq). simplify_eq.
      destruct (returned_done y b HR (ex_intro _ r Hr)) as (bg' & r' & Hb' & Hpc & Hr' & _). rewrite (returned_unique _ _ _ _ HR Hr' Hr) in *. simplify_eq.
      rewrite Hpc in Hq. destruct r; try done; by simpl in *.
    + exfalso. eapply (put_not_ended y l); [done..|]. by exists b.
Qed.
Lemma no_timeout y a ag k : Reach y → y_agents y !! a = Some ag → or_insert (a_call ag) k → (a, EvRet RetTimeout) ∉ y_log y.
Proof.
  intros HR Ha Hk Hr. destruct (returned_done y a HR (ex_intro _ RetTimeout Hr)) as (ag' & r' & Ha' & _ & Hr' & h & Hl & _). simplify_eq.
  rewrite (returned_unique _ _ _ _ HR Hr' Hr) in *. inversion Hl as [| | | | | |k0 to id E| | | | | |]; subst. rewrite <-E in Hk. by destruct Hk.
Qed.
(* ---- everybody returns ---- *)
Lemma all_return dbg y a ag : Reach y → at_rest dbg y → (∀ l b, ¬ guard_held y l b) → (∀ l b, ¬ woken_future y l b) → y_agents y !! a = Some ag →
  returned (y_log y) a ∨ ∃ j k, a_pc ag = FNew j k.
Proof.
  intros HR Hr Hg Hw Ha. destruct (is_done (a_pc ag)) eqn:Ed.
  - left. destruct (a_pc ag) eqn:Epc; try done. exists r. apply hist_in; [done|].
    pose proof (hi_agent _ (rc_h _ HR) _ _ Ha) as Hh. rewrite Epc in Hh. destruct Hh as (h0 & _ & ->). apply elem_of_app. right. by left.
  - assert (¬ returned (y_log y) a) as Hn by (intros Hret; destruct (done_returned _ _ _ HR Ha Hret) as [r E]; by rewrite E in Ed).
    destruct (rest_unreturned _ _ _ _ HR Hr Ha Hn) as [[l H]|[H|[[l H]|[l H]]]]; [by destruct (Hg _ _ H)|by right|by destruct (Hw _ _ H)|].
    destruct (rest_waiting _ _ _ _ HR Hr H) as (b & _ & [Hb|Hb]); [by destruct (Hg _ _ Hb)|by destruct (Hw _ _ Hb)].
Qed.
End concload.
