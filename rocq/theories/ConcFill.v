(* What the insert of a guard does, and where the values that are provided come from. *)
From stdpp Require Import prelude list functions.
From Verif Require Export ConcPropSpec ConcExact.

Section concfill.
Context {P : Params} (LW : Lawful P) (PI : ptr_ids P = true).
Context {budget ghosts cap e : N}.
Notation K := (K P). Notation V := (V P). Notation RS := (RS P).
Notation shard := (shard P). Notation sys := (sys P). Notation pc := (pc P). Notation agent := (agent P).
Notation CInv := (CInv budget ghosts cap e). Notation Reach := (@Reach P (full P) budget ghosts cap e).
Implicit Types (s : shard) (k : K) (v : V) (rs : RS) (p : plh) (a b : nat) (l : loc) (j : nat) (y : sys) (x : pc) (ag : agent).
Implicit Types (c : call P) (h : list (cevent P)) (g es : list (nat * cevent P)).

(* ---- an agent fills once ---- *)
Definition is_fill (ev : cevent P) : bool := match ev with EvSec _ (OFill _ _ _ _) _ => true | _ => false end.
Definition nfill h : nat := length (List.filter is_fill h).
Lemma nfill_app h1 h2 : nfill (h1 ++ h2) = nfill h1 + nfill h2.
Proof. unfold nfill. by rewrite List.filter_app, app_length. Qed.
Lemma nfill_all m i : nfill (map (all_ev (P:=P) m) i) = 0.
Proof. unfold nfill. by induction i. Qed.
Lemma nfill_guarded j c k id h : guarded j c k id h → nfill h = 0.
Proof. by intros [|]. Qed.
Lemma nfill_guardian j c k id h : guardian j c k id h → nfill h = 0.
Proof. intros [H|[_ ->]]; [by eapply nfill_guarded|done]. Qed.
Lemma nfill_dropped j id h : dropped (P:=P) j id h → nfill h = 0.
Proof. by intros [|]. Qed.
Lemma nfill_life mask n c h r : life mask n c h r → nfill h ≤ 1.
Proof.
  intros H. destruct H; try (simpl; lia); rewrite ?nfill_app; try match goal with H : guarded _ _ _ _ _ |- _ => rewrite (nfill_guarded _ _ _ _ _ H) end;
    try match goal with H : dropped _ _ _ |- _ => rewrite (nfill_dropped _ _ _ H) end; try (simpl; lia); try (unfold nfill; simpl; lia).
  change (nfill (map (all_ev m) (seq 0 n)) ≤ 1). rewrite nfill_all. lia.
Qed.
Lemma nfill_hpc mask n c x h : hpc mask n c x h → nfill h ≤ 1.
Proof.
  intros H. destruct x; simpl in H;
    try (destruct nm; simpl in H); try (destruct sm; simpl in H);
    repeat match goal with
    | H : ∃ _, _ |- _ => destruct H as [? H]
    | H : _ ∧ _ |- _ => destruct H as [? H]
    end; try subst h; rewrite ?nfill_app;
    try match goal with H : guarded _ _ _ _ _ |- _ => rewrite (nfill_guarded _ _ _ _ _ H) end;
    try match goal with H : guardian _ _ _ _ _ |- _ => rewrite (nfill_guardian _ _ _ _ _ H) end; try (unfold nfill; simpl; lia).
  - change (nfill (map (all_ev m) (seq 0 x)) ≤ 1). rewrite nfill_all. lia.
  - change (nfill (map (all_ev m) (seq 0 j)) ≤ 1). rewrite nfill_all. lia.
  - match goal with H : life _ _ _ _ _ |- _ => apply nfill_life in H end. unfold nfill at 2; simpl. lia.
Qed.
Lemma hist_cons (z : nat * cevent P) g a : hist (z :: g) a = mine a z ++ hist g a.
Proof. done. Qed.
Lemma fill_once y g1 a j1 rs1 id1 v1 wl1 r1 g2 j2 rs2 id2 v2 wl2 r2 g3 : Reach y →
  y_log y = g1 ++ (a, EvSec j1 (OFill rs1 id1 v1 wl1) r1) :: g2 ++ (a, EvSec j2 (OFill rs2 id2 v2 wl2) r2) :: g3 → False.
Proof.
  intros HR E. assert ((a, EvSec j1 (OFill rs1 id1 v1 wl1) r1) ∈ y_log y) as Hin by (rewrite E; apply elem_of_app; right; left).
  pose proof (hi_log _ (rc_h _ HR) _ _ Hin) as Hlt. apply lookup_lt_is_Some in Hlt as [ag Ha].
  pose proof (nfill_hpc _ _ _ _ _ (hi_agent _ (rc_h _ HR) _ _ Ha)) as Hn. rewrite E, hist_app, hist_cons, hist_app, hist_cons, !nfill_app in Hn.
  unfold mine in Hn; simpl in Hn. rewrite !decide_True in Hn by done. simpl in Hn. lia.
Qed.

(* ---- the truth about the insert of a guard ---- *)
Lemma plog_started g : proper_log (P:=P) g → ∀ l a, trusted g l a → started g l.
Proof.
  induction g as [|[d ev] g IH] using rev_ind; intros Hp l a; [intros [[? ?%elem_of_nil]|[? ?%elem_of_nil]]; done|].
  apply proper_init in Hp as [Hp He]. simpl in He. rewrite trusted_snoc.
  assert (started g l → started (g ++ [(d, ev)]) l) as Hm by (intros (b & k & H); exists b, k; apply snoc_in; by left).
  intros [H|[(k & -> & ->)| ->]]; [by apply Hm, (IH Hp _ a)| |].
  - exists a, k. apply snoc_in. by right.
  - destruct He as [[He _] _]. by apply Hm, (IH Hp _ d).
Qed.
(* every insert of a guard was preceded by the start of its load *)
Lemma fill_started y g1 a j rs id v wl r g2 : GInv y → y_log y = g1 ++ (a, EvSec j (OFill rs id v wl) r) :: g2 →
  ∃ ga b k gb, g1 = ga ++ (b, EvSec j (OJoin k) (SNew id)) :: gb.
Proof.
  intros HG E. pose proof (gi_proper _ HG) as Hp. destruct (Hp _ _ _ _ E) as [H _].
  rewrite E in Hp. apply proper_prefix in Hp.
  assert (settled g1 (j, id) a) as Hs by (left; by exists v).
  apply (plog_settled _ Hp) in Hs. apply (plog_started _ Hp) in Hs as (b & k & Hb). apply elem_of_list_split in Hb as (ga & gb & ->). eauto.
Qed.
Lemma fill_truth y ga b j k id gb a rs v wl r gc : Reach y → GInv y →
  y_log y = ga ++ (b, EvSec j (OJoin k) (SNew id)) :: gb ++ (a, EvSec j (OFill rs id v wl) r) :: gc →
  ∃ d d', legal cap budget (sections j (ga ++ (b, EvSec j (OJoin k) (SNew id)) :: gb)) d ∧
    sdoes cap budget d (OFill rs id v wl) r d' ∧
    ((r = SStale v ∧ cancelled budget gb j k) ∨
     (∃ (es : list (event P)) rs', r = SO (reply rs es rs' wl RGuard false) ∧ ¬ cancelled budget gb j k ∧
        loads cap budget rs (ss_items d) k v es rs' (ss_items d'))).
Proof.
  intros HR HG E.
  assert ((b, EvSec j (OJoin k) (SNew id)) ∈ y_log y) as H1 by (rewrite E; apply elem_of_app; right; left).
  destruct (join_shard _ _ _ _ _ HR H1) as [_ Hlt].
  assert (∃ v, (a, EvPut (j, id) v) ∈ y_log y) as [v0 Hput].
  { destruct (gi_proper _ HG (ga ++ (b, EvSec j (OJoin k) (SNew id)) :: gb) a (EvSec j (OFill rs id v wl) r) gc) as [H _].
    - by rewrite E, <-app_assoc.
    - exists v. rewrite E, app_comm_cons, app_assoc. apply elem_of_app. by left. }
  destruct (legal_at y j HR Hlt) as (s & d9 & _ & HL & _).
  rewrite E, app_comm_cons, app_assoc, sections_app, sections_cons, sec_of_same in HL.
  apply legal_mid in HL as (d & d' & HL & Hs & _). simpl in Hs. exists d, d'. split; [done|]. split; [done|].
  pose proof HL as HLs. rewrite sections_app, sections_cons, sec_of_same in HLs. simpl in HLs.
  destruct (legal_once _ _ HLs id k k _ _ eq_refl) as (_ & _ & _).
  assert (∀ k', ss_pend d id = Some k' → k' = k ∧ Forall (λ z, ¬ @ends P budget k id z) (sections j gb)) as Hpend.
  { intros k' Hk'. apply (legal_pending _ _ HLs) in Hk' as (h1 & h2 & Eh & HF).
    destruct (legal_once _ _ HLs id k k' _ _ eq_refl) as (N1 & _ & N2).
    rewrite Eh in HLs. destruct (legal_once _ _ HLs id k' k _ _ eq_refl) as (N3 & _ & N4).
    assert (h1 = sections j ga) as ->.
    { clear -Eh N1 N2 N3 N4. revert h1 Eh N3. generalize dependent (sections j ga). intros l. induction l as [|z l IH]; intros N1 h1 Eh N3.
      - destruct h1 as [|z h1]; [done|]. simpl in Eh. injection Eh as <- Eh. destruct N3. left.
      - destruct h1 as [|z' h1]; simpl in Eh; injection Eh as -> Eh; [destruct N1; left|]. f_equal. apply IH; [|done|].
        + intros H. apply N1. by right. + intros H. apply N3. by right. }
    apply app_inv_head in Eh. injection Eh as <- <-. done. }
  assert (Forall (λ z, ¬ @ends P budget k id z) (sections j gb) → ¬ cancelled budget gb j k) as Hno.
  { intros HF (c & m & o & Hin & Hc). rewrite Forall_forall in HF. apply (HF (OCmd m, SO o)); [|done]. apply in_sections. by exists c. }
  destruct r as [o|v1|id1|id1|v1|]; try (by destruct d, d').
  - right. destruct d as [c0 p0 n0], d' as [c1 p1 n1]. simpl in Hs. destruct Hs as (k' & es & rs' & Hk' & Hld & -> & _ & _).
    destruct (Hpend k' Hk') as [-> HF]. simpl. exists es, rs'. split_and!; try done. by apply Hno.
  - left. destruct d as [c0 p0 n0], d' as [c1 p1 n1]. simpl in Hs. destruct Hs as (Hk' & -> & _). split; [done|].
    destruct (List.Exists_dec (@ends P budget k id) (sections j gb) (ends_dec k id)) as [Hex|Hex].
    + apply Exists_exists in Hex as ([o r] & Hin & He). apply in_sections in Hin as [c Hc].
      assert ((c, EvSec j o r) ∈ y_log y) as Hin by (rewrite E; apply elem_of_app; right; right; apply elem_of_app; by left).
      destruct (log_fits _ _ _ HR Hin eq_refl) as (ag & _ & Hf).
      destruct o as [m|k'|rs' id' v' wl'|id'], r as [o|v3|id0|id0|v3|]; try done; simpl in He.
      * by exists c, m, o.
      * subst id'. destruct Hf as (_ & _ & _ & Hf). exfalso. apply hist_in in Hf; [|done].
        destruct (put_one _ _ _ _ _ _ HG Hput Hf) as [<- _]. apply elem_of_list_split in Hc as (g1 & g2 & ->).
        eapply (fill_once y (ga ++ (b, EvSec j (OJoin k) (SNew id)) :: g1) a); [exact HR|]. rewrite E, <-(app_assoc ga). simpl. rewrite <-(app_assoc g1). done.
      * subst id'. simpl in Hf. exfalso. apply hist_in in Hf; [|done]. eapply (put_not_ended y (j, id)); [done..|]. by exists c.
    + exfalso. assert (ss_pend (SSt c0 p0 n0) id = Some k) as Hp.
      { apply (legal_pending _ _ HLs). exists (sections j ga), (sections j gb). split; [done|]. apply Forall_forall. intros z Hz He. apply Hex, Exists_exists. by exists z. }
      simpl in Hp. by rewrite Hk' in Hp.
Qed.

(* ---- values come from the callers ---- *)
Definition puts_pc x : option (RS * V * bool) :=
  match x with
  | IWant _ _ rs v wl | IIn _ _ rs v wl | FillWant _ _ rs v wl _ | FillIn _ _ rs v wl _
  | NGo _ _ _ (NIns rs v wl _) | NUnpark _ _ _ _ (NIns rs v wl _) | NTask _ _ _ _ (NIns rs v wl _) => Some (rs, v, wl)
  | _ => None
  end.
Record asks (ls : list (label P)) y : Prop := {
  as_pc : ∀ a ag rs v wl, y_agents y !! a = Some ag → puts_pc (a_pc ag) = Some (rs, v, wl) → PutG a rs v wl ∈ ls;
  as_put : ∀ a l v, (a, EvPut l v) ∈ y_log y → ∃ rs wl, PutG a rs v wl ∈ ls;
  as_fill : ∀ a j rs id v wl r, (a, EvSec j (OFill rs id v wl) r) ∈ y_log y → PutG a rs v wl ∈ ls;
}.
Lemma mv_puts dbg y a ag x x' h us z : mv dbg y a ag x x' h us → puts_pc x' = Some z → puts_pc x = Some z.
Proof.
  intros M H. destruct M; try done; simpl in *; try (destruct nm; done).
  - destruct x; try done; simpl in *; [by destruct js|]. destruct ws as [|[? [|]] ?]; try done. 
  - by destruct H0 as [-> | ->].
  - destruct H0; [done|]. by destruct p.
  - by destruct sm.
  - by destruct md as [[]|].
  - by destruct H1.
  - by destruct H2.
Qed.
Lemma mv_put_ev dbg y a ag x x' h us l v : mv dbg y a ag x x' h us → EvPut l v ∈ h → ∃ rs wl, puts_pc x = Some (rs, v, wl).
Proof.
  intros M H. destruct M; try (repeat (apply elem_of_cons in H as [H|H]; [discriminate H|]); by apply elem_of_nil in H).
  - apply elem_of_cons in H as [H|H]; [done|]. apply (starts_ev _ _ _ _ _ _ _ H0) in H as (H & _). done.
  - apply guarded_ev_in in H. done.
  - apply (starts_ev _ _ _ _ _ _ _ H1) in H as (H & _). done.
  - apply (starts_ev _ _ _ _ _ _ _ H2) in H as (H & _). done.
  - apply elem_of_list_singleton in H. injection H as _ ->. by exists rs, wl.
Qed.
Lemma mv_fill_ev dbg y a ag x x' h us j rs id v wl r : mv dbg y a ag x x' h us → EvSec j (OFill rs id v wl) r ∈ h → puts_pc x = Some (rs, v, wl).
Proof.
  intros M H. destruct M; try (repeat (apply elem_of_cons in H as [H|H]; [discriminate H|]); by apply elem_of_nil in H).
  - apply elem_of_cons in H as [H|H]; [done|]. apply (starts_ev _ _ _ _ _ _ _ H0) in H as (H & _). done.
  - apply guarded_ev_in in H. done.
  - apply (starts_ev _ _ _ _ _ _ _ H1) in H as (H & _). done.
  - apply (starts_ev _ _ _ _ _ _ _ H2) in H as (H & _). done.
  - apply elem_of_cons in H as [H|H]; [|by inversion H as [|? ? ? H1]; subst; apply elem_of_nil in H1]. injection H as _ -> _ -> -> _. done.
  - apply elem_of_cons in H as [H|H]; [|by inversion H as [|? ? ? H1]; subst; apply elem_of_nil in H1]. injection H as _ -> _ -> -> _. done.
Qed.
Lemma asks_step dbg ls y lb y' : asks ls y → stepped dbg y y' lb → asks (ls ++ [lb]) y'.
Proof.
  intros [I1 I2 I3] Hs.
  assert (∀ a rs v wl, PutG a rs v wl ∈ ls → PutG a rs v wl ∈ ls ++ [lb]) as Hm by (intros; apply elem_of_app; by left).
  destruct Hs as [a ag x' h us Ha M Hmv|lb a ag x' h Ha X Hmv|c x Hx ->|d ->].
  - split.
    + intros b bg' rs v wl Hb Hp. destruct (md_case _ _ _ _ _ _ _ _ _ Hmv Ha Hb) as (bg & Hbg & _ & _ & _ & _ & _ & _ & [(-> & -> & E)|[Hne E]]).
      * rewrite E in Hp. apply Hm. eapply I1; [done|]. by eapply mv_puts.
      * rewrite E in Hp. apply Hm. by eapply I1.
    + intros b l v Hin. rewrite (md_log _ _ _ _ _ _ Hmv) in Hin. apply elem_of_app in Hin as [Hin|Hin].
      * destruct (I2 _ _ _ Hin) as (rs & wl & H). eauto.
      * apply elem_of_list_fmap in Hin as (ev & [= -> <-] & Hin). destruct (mv_put_ev _ _ _ _ _ _ _ _ _ _ M Hin) as (rs & wl & H). eauto.
    + intros b j rs id v wl r Hin. rewrite (md_log _ _ _ _ _ _ Hmv) in Hin. apply elem_of_app in Hin as [Hin|Hin].
      * eauto.
      * apply elem_of_list_fmap in Hin as (ev & [= -> <-] & Hin). eapply mv_fill_ev in Hin; [|done]. eauto.
  - assert (∀ z, puts_pc x' = Some z → puts_pc (a_pc ag) = Some z ∨ lb = PutG a z.1.1 z.1.2 z.2) as Hx.
    { intros z Hz. destruct X; try done; try (by left). right. injection Hz as <-. done. }
    assert (∀ ev, ev ∈ h → ev = EvRet RetCancel) as Hev by (intros ev; by eapply ext_events).
    split.
    + intros b bg' rs v wl Hb Hp. destruct (md_case _ _ _ _ _ _ _ _ _ Hmv Ha Hb) as (bg & Hbg & _ & _ & _ & _ & _ & _ & [(-> & -> & E)|[Hne E]]).
      * rewrite E in Hp. destruct (Hx _ Hp) as [H| ->]; [apply Hm; by eapply I1|]. apply elem_of_app. right. by left.
      * rewrite E in Hp. apply Hm. by eapply I1.
    + intros b l v Hin. rewrite (md_log _ _ _ _ _ _ Hmv) in Hin. apply elem_of_app in Hin as [Hin|Hin].
      * destruct (I2 _ _ _ Hin) as (rs & wl & H). eauto.
      * apply elem_of_list_fmap in Hin as (ev & [= -> <-] & Hin). by apply Hev in Hin.
    + intros b j rs id v wl r Hin. rewrite (md_log _ _ _ _ _ _ Hmv) in Hin. apply elem_of_app in Hin as [Hin|Hin].
      * eauto.
      * apply elem_of_list_fmap in Hin as (ev & [= -> <-] & Hin). by apply Hev in Hin.
  - split; simpl.
    + intros b bg rs v wl Hb Hp. apply lookup_app_Some in Hb as [Hb|[_ Hb]]; [by eapply Hm, I1|].
      destruct (b - length (y_agents y)); [|done]. injection Hb as <-. simpl in Hp. exfalso. unfold first_pc in Hx.
      destruct c; simpl in Hx.
      * destruct (sync_cmd m); [|done]. destruct (key_of m) as [k|]; [|by injection Hx as <-].
        destruct (shard_for (y_cache y) k); [|done]. cbn in Hx. injection Hx as <-. by destruct m.
      * destruct (shard_for (y_cache y) k); [|done]. cbn in Hx. by injection Hx as <-.
      * destruct (shard_for (y_cache y) k); [|done]. cbn in Hx. by injection Hx as <-.
    + intros b l v Hin. apply snoc_in in Hin as [Hin|Hin]; [|done]. destruct (I2 _ _ _ Hin) as (rs & wl & H). eauto.
    + intros b j rs id v wl r Hin. apply snoc_in in Hin as [Hin|Hin]; [|done]. eauto.
  - split; simpl; [eauto| |eauto]. intros b l v Hin. destruct (I2 _ _ _ Hin) as (rs & wl & H). eauto.
Qed.
Lemma asks_all dbg ls y : execution dbg budget ghosts cap e ls y → asks ls y.
Proof.
  unfold execution. intros H. remember (sys_new budget ghosts cap e) as y0. induction H as [|y0 ls y1 lb y2 H IH Hs].
  - subst. split; simpl; [done|by intros ? ? ? ?%elem_of_nil|by intros ? ? ? ? ? ? ? ?%elem_of_nil].
  - subst. specialize (IH eq_refl). eapply asks_step; [done|]. eapply (cstep_stepped LW PI); [|done]. by eapply (rc_c _ (reach LW PI _ _ _ H)).
Qed.
End concfill.
