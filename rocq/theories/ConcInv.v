(* The invariant of the concurrent cache. *)
From stdpp Require Import prelude list functions.
From Verif Require Export SyncShard ConcSpec Proto.

(* What is known about the past: which histories of a shard's critical sections can have led to
   which state, and which agents ended in a panic. *)
Class Ledger (P : Params) := {
  lg_ok : N → N → nat → list (sop P * sres P) → sst P → Prop;
  lg_next : ∀ cap budget j h d o r d', lg_ok cap budget j h d → sdoes cap budget d o r d' → lg_ok cap budget j (h ++ [(o, r)]) d';
  lg_dead : nat → Prop;
}.
(* without panics, everything is *)
Definition full_next (P : Params) (cap budget : N) (j : nat) (h : list (sop P * sres P)) (d : sst P) (o : sop P) (r : sres P) (d' : sst P) :
  legal cap budget h d → sdoes cap budget d o r d' → legal cap budget (h ++ [(o, r)]) d' := λ H1 H2, lg_step _ _ _ _ _ _ _ H1 H2.
Global Instance full (P : Params) : Ledger P | 100 :=
  {| lg_ok cap budget _ := legal cap budget; lg_next := full_next P; lg_dead _ := False |}.

Section concinv.
Context {P : Params} {LG : Ledger P}.
Notation K := (K P). Notation V := (V P). Notation RS := (RS P).
Notation shard := (shard P). Notation sys := (sys P). Notation pc := (pc P). Notation agent := (agent P).
Implicit Types (s : shard) (k : K) (v : V) (rs : RS) (p : plh) (a b : nat) (l : loc) (j : nat) (y : sys) (x : pc) (ag : agent).

(* the part an agent has in a load *)
Definition part_of x : option (nat * plh * lrole P) :=
  match x with
  | JPush j p _ | JPushIn j p _ => Some (j, p, QPush)
  | JStart j p _ | JPark j p _ | JChk j p _ | JElapsed j p _ _ | JTime j p | JTimeIn j p => Some (j, p, QWait false)
  | FIdle j p _ | FPoll j p _ | FPollIn j p _ | FDrop j p | FDropS j p | FDropIn j p => Some (j, p, QWait true)
  | JRe j p | JReS j p | JReIn j p => Some (j, p, QWoke)
  | SWant j p _ | SIn j p _ | AGuard j p | IWant j p _ _ _ | IIn j p _ _ _ | DWant j p | DS j p | DIn j p => Some (j, p, QGuard)
  | NGo j p ws nm =>
      match nm with
      | NIns _ v _ _ => Some (j, p, QNote v ws)
      | NDrop => match ws with w :: _ => Some (j, p, QHand w) | [] => None end
      end
  | NUnpark j p _ ws (NIns _ v _ _) => Some (j, p, QNote v ws)
  | NTask j p b ws (NIns _ v _ _) => Some (j, p, QNote v ((b, true) :: ws))
  | NTask j p b _ NDrop => Some (j, p, QHand (b, true))
  | FillWant j p _ v _ _ | FillIn j p _ v _ _ => Some (j, p, QFill v)
  | _ => None
  end.
Definition role_pc l x : lrole P :=
  match part_of x with Some (j, p, r) => if decide (pl j p = l) then r else QNone | None => QNone end.
Definition role y l a : lrole P := match y_agents y !! a with Some ag => role_pc l (a_pc ag) | None => QNone end.
Definition flag y a : bool := match y_agents y !! a with Some ag => a_flag ag | None => false end.
Definition shard_at y j : option shard := sc_shards (y_cache y) !! j.
Definition pend_at y l : option K := match shard_at y l.1 with Some s => pend_of s l.2 | None => None end.
Definition next_id y j : N := match shard_at y j with Some s => sh_nph s | None => 0 end.
(* a was made responsible for l: it started the load, or was given the guard *)
Definition ent y l a : Prop :=
  (∃ k, (a, EvSec l.1 (OJoin k) (SNew l.2)) ∈ y_log y) ∨ (∃ b, (b, EvGive l a) ∈ y_log y).
(* it provided the value, passed the guard on, or gave up *)
Definition dis y l a : Prop :=
  (∃ v, (a, EvPut l v) ∈ y_log y) ∨ (∃ b, (a, EvGive l b) ∈ y_log y) ∨ (a, EvEnd l) ∈ y_log y.
Definition putv y l v : Prop := ∃ a, (a, EvPut l v) ∈ y_log y.
Definition lview y l : lv P :=
  LV (role y l) (flag y) (at_load y l) (waiting_on y l) (is_Some (pend_at y l)) (bool_decide (l.2 < next_id y l.1)%N)
     (ent y l) (dis y l) (putv y l).

(* the shards an agent is going to use *)
Definition pc_shards x : list nat :=
  match x with
  | PWant j _ | PIn j _ | GWant j _ _ | GIn j _ _ | GBump j _ _ _ | GHit j _ _ | GMiss j _ _ | JWant j _ _ | JIn j _ _ | FNew j _ => [j]
  | PAll _ js => js
  | PAllIn _ j js => j :: js
  | _ => match part_of x with Some (j, _, _) => [j] | None => [] end
  end.
Definition all_cmd (m : cmd P) : Prop := sync_cmd m = true ∧ key_of m = None.
Definition pc_shape x : Prop :=
  match x with
  | PWant _ m | PIn _ m => sync_cmd m = true ∧ ∀ k, m ≠ CGet k
  | PAll m _ | PAllIn m _ _ => all_cmd m
  | NGo _ _ ws NDrop => length ws ≤ 1
  | NUnpark _ _ _ ws NDrop | NTask _ _ _ ws NDrop => ws = []
  | _ => True
  end.
Record pc_ok y x : Prop := {
  po_shards : Forall (λ j, j < length (sc_shards (y_cache y))) (pc_shards x);
  po_shape : pc_shape x;
  po_handle : ∀ j p r s, part_of x = Some (j, p, r) → shard_at y j = Some s → hgood s p;
  po_bump : ∀ j i v c, x = GBump j i v c → ∃ s r, shard_at y j = Some s ∧ its_of s !! i = Some (Some (Resident r));
}.
Definition same_st (d d' : sst P) : Prop :=
  ss_items d = ss_items d' ∧ same_pend (ss_pend d) (ss_pend d') ∧ ss_next d = ss_next d'.

Record CInv (budget ghosts cap e : N) y : Prop := {
  ci_len : length (sc_shards (y_cache y)) = N.to_nat (2 ^ e);
  ci_mask : sc_mask (y_cache y) = (2 ^ e - 1)%N;
  ci_inv : ∀ j s, shard_at y j = Some s → Inv s ∧ cfg s = (budget, cap, ghosts);
  ci_load : ∀ l, LInv (lview y l);
  ci_lock : ∀ a b ag bg, a ≠ b → y_agents y !! a = Some ag → y_agents y !! b = Some bg →
    ∀ h h', h ∈ holds a (a_pc ag) → h' ∈ holds b (a_pc bg) → compat h h' = true;
  ci_pc : ∀ a ag, y_agents y !! a = Some ag → pc_ok y (a_pc ag);
  ci_legal : ∀ j s, shard_at y j = Some s → ∃ d, lg_ok cap budget j (sections j (y_log y)) d ∧ same_st d (abs s);
}.

(* ---- views ---- *)
Lemma lookup_goto y a x b : y_agents (goto y a x) !! b = (if decide (b = a) then set_apc x else id) <$> y_agents y !! b.
Proof.
  unfold goto, with_agent; simpl. case_decide.
  - subst. by rewrite list_lookup_alter.
  - rewrite list_lookup_alter_ne by done. by destruct (y_agents y !! b).
Qed.
Lemma lookup_agent y a f b : y_agents (with_agent y a f) !! b = (if decide (b = a) then f else id) <$> y_agents y !! b.
Proof.
  unfold with_agent; simpl. case_decide.
  - subst. by rewrite list_lookup_alter.
  - rewrite list_lookup_alter_ne by done. by destruct (y_agents y !! b).
Qed.
Lemma role_goto y a ag x l b : y_agents y !! a = Some ag →
  role (goto y a x) l b = if decide (b = a) then role_pc l x else role y l b.
Proof.
  intros Ha. unfold role. rewrite lookup_goto. case_decide; [subst; by rewrite Ha|]. by destruct (y_agents y !! b).
Qed.
Lemma role_agent y b f l c : (∀ ag, a_pc (f ag) = a_pc ag) → role (with_agent y b f) l c = role y l c.
Proof. intros Hf. unfold role. rewrite lookup_agent. case_decide; destruct (y_agents y !! c); simpl; [by rewrite Hf|done..]. Qed.
Lemma flag_goto y a x b : flag (goto y a x) b = flag y b.
Proof. unfold flag. rewrite lookup_goto. by case_decide; destruct (y_agents y !! b). Qed.
Lemma flag_set y a f b ag : y_agents y !! a = Some ag → flag (with_agent y a (set_flag f)) b = if decide (b = a) then f else flag y b.
Proof.
  intros Ha. unfold flag. rewrite lookup_agent. case_decide; [subst; by rewrite Ha|]. by destruct (y_agents y !! b).
Qed.
Lemma flag_agent y a f b : (∀ ag, a_flag (f ag) = a_flag ag) → flag (with_agent y a f) b = flag y b.
Proof. intros Hf. unfold flag. rewrite lookup_agent. case_decide; destruct (y_agents y !! b); simpl; [by rewrite Hf|done..]. Qed.

(* events that say nothing about who is responsible for l *)
Definition quiet_ev l (e : nat * cevent P) : Prop :=
  match e.2 with
  | EvSec j _ (SNew id) => (j, id) ≠ l
  | EvGive l' _ => l' ≠ l
  | EvPut l' _ => l' ≠ l
  | _ => True
  end.
Lemma ent_quiet y y' l es b : y_log y' = y_log y ++ es → Forall (quiet_ev l) es → (ent y' l b ↔ ent y l b).
Proof.
  intros Hl Hq. unfold ent. rewrite Hl. rewrite Forall_forall in Hq. split.
  - intros [[k H]|[c H]]; apply elem_of_app in H as [H|H]; eauto; apply Hq in H; simpl in H; [|done]. by destruct l.
  - intros [[k H]|[c H]]; [left; exists k|right; exists c]; apply elem_of_app; by left.
Qed.
Lemma dis_mono y y' l es b : y_log y' = y_log y ++ es → dis y l b → dis y' l b.
Proof.
  intros Hl. unfold dis. rewrite Hl. intros [[v H]|[[c H]|H]]; [left; exists v|right; left; exists c|right; right]; apply elem_of_app; by left.
Qed.
Lemma put_quiet y y' l es v : y_log y' = y_log y ++ es → Forall (quiet_ev l) es → (putv y' l v ↔ putv y l v).
Proof.
  intros Hl Hq. unfold putv. rewrite Hl. rewrite Forall_forall in Hq. split.
  - intros [a H]; apply elem_of_app in H as [H|H]; eauto. apply Hq in H. done.
  - intros [a H]. exists a. apply elem_of_app; by left.
Qed.
(* what does not concern l leaves its protocol alone *)
Lemma linv_frame y y' l es : LInv (lview y l) →
  (∀ b, role y' l b = role y l b) → (∀ b t, role y l b = QWait t → flag y' b = flag y b) →
  y_ph y' l = y_ph y l → (is_Some (pend_at y' l) ↔ is_Some (pend_at y l)) →
  bool_decide (l.2 < next_id y' l.1)%N = bool_decide (l.2 < next_id y l.1)%N →
  y_log y' = y_log y ++ es → Forall (quiet_ev l) es → LInv (lview y' l).
Proof.
  intros HI Hr Hf Hp Hm Hn Hl Hq. eapply linv_ext; [exact HI|..]; simpl; try done.
  - unfold at_load. by rewrite Hp.
  - unfold waiting_on. by rewrite Hp.
  - intros b. by eapply ent_quiet.
  - intros b. by eapply dis_mono.
  - intros v. by eapply put_quiet.
Qed.

(* ---- building the invariant again ---- *)
Definition only_pc y y' a x' : Prop :=
  ∀ b, a_pc <$> y_agents y' !! b = if decide (b = a) then Some x' else a_pc <$> y_agents y !! b.
Definition excl y a (h : lock * lmode) : Prop :=
  ∀ b bg, b ≠ a → y_agents y !! b = Some bg → ∀ h', h' ∈ holds b (a_pc bg) → compat h h' = true.
Lemma compat_sym h h' : compat h h' = compat h' h.
Proof. unfold compat. destruct h as [l1 [|]], h' as [l2 [|]]; simpl; repeat case_decide; congruence. Qed.
Lemma lock_step budget ghosts cap e y y' a ag x' : CInv budget ghosts cap e y → y_agents y !! a = Some ag → only_pc y y' a x' →
  (∀ h, h ∈ holds a x' → h ∈ holds a (a_pc ag) ∨ excl y a h) →
  ∀ b c bg cg, b ≠ c → y_agents y' !! b = Some bg → y_agents y' !! c = Some cg →
    ∀ h h', h ∈ holds b (a_pc bg) → h' ∈ holds c (a_pc cg) → compat h h' = true.
Proof.
  intros HC Ha Hp Hh.
  assert (∀ b bg, b ≠ a → y_agents y' !! b = Some bg → ∃ bg0, y_agents y !! b = Some bg0 ∧ a_pc bg0 = a_pc bg) as Hold.
  { intros b bg Hne Hb. specialize (Hp b). rewrite Hb, decide_False in Hp by done. simpl in Hp.
    destruct (y_agents y !! b) as [bg0|]; [|done]. injection Hp as Hp. eauto. }
  assert (∀ ag', y_agents y' !! a = Some ag' → a_pc ag' = x') as Hnew.
  { intros ag' Ha'. specialize (Hp a). rewrite Ha', decide_True in Hp by done. by injection Hp as ->. }
  assert (∀ b bg, b ≠ a → y_agents y' !! b = Some bg → ∀ h h', h ∈ holds a x' → h' ∈ holds b (a_pc bg) → compat h h' = true) as Hex.
  { intros b bg Hne Hb h h' H1 H2. destruct (Hold b bg Hne Hb) as (bg0 & Hb0 & Hpc). rewrite <-Hpc in H2.
    destruct (Hh h H1) as [H3|H3]; [|by eapply H3]. by eapply (ci_lock _ _ _ _ _ HC a b). }
  intros b c bg cg Hne Hb Hc h h' H1 H2. destruct (decide (b = a)) as [->|Hba]; [|destruct (decide (c = a)) as [->|Hca]].
  - rewrite (Hnew _ Hb) in H1. by eapply (Hex c).
  - rewrite (Hnew _ Hc) in H2. rewrite compat_sym. by eapply (Hex b).
  - destruct (Hold b bg Hba Hb) as (bg0 & Hb0 & Hpc). destruct (Hold c cg Hca Hc) as (cg0 & Hc0 & Hpc').
    rewrite <-Hpc in H1. rewrite <-Hpc' in H2. by eapply (ci_lock _ _ _ _ _ HC b c).
Qed.

(* a step that leaves the shards alone *)
Lemma cinv_still budget ghosts cap e y y' a ag x' es : CInv budget ghosts cap e y → y_agents y !! a = Some ag → only_pc y y' a x' →
  y_cache y' = y_cache y → y_log y' = y_log y ++ es → (∀ j, sections j es = []) →
  (∀ h, h ∈ holds a x' → h ∈ holds a (a_pc ag) ∨ excl y a h) →
  (∀ j, j ∈ pc_shards x' → j ∈ pc_shards (a_pc ag)) → pc_shape x' →
  (∀ j p r, part_of x' = Some (j, p, r) → ∃ r', part_of (a_pc ag) = Some (j, p, r')) →
  (∀ j i v c, x' ≠ GBump j i v c) →
  (∀ l, LInv (lview y' l)) → CInv budget ghosts cap e y'.
Proof.
  intros HC Ha Hp Hc Hl Hs Hh Hj Hsh Hpt Hgb HL. destruct (HC) as [A B C D E F G].
  assert (∀ j, shard_at y' j = shard_at y j) as Hsa by (intros j; unfold shard_at; by rewrite Hc).
  split.
  - by rewrite Hc.
  - by rewrite Hc.
  - intros j s. rewrite Hsa. apply C.
  - done.
  - by eapply lock_step.
  - intros b bg Hb. destruct (decide (b = a)) as [->|Hne].
    + assert (a_pc bg = x') as -> by (specialize (Hp a); rewrite Hb, decide_True in Hp by done; by injection Hp as ->).
      destruct (F a ag Ha) as [F1 F2 F3 F4]. split; [|done| |].
      * rewrite Forall_forall in F1 |- *. rewrite Hc. intros j Hj'. by apply F1, Hj.
      * intros j p r s H1. rewrite Hsa. destruct (Hpt j p r H1) as [r' H2]. intros Hs'. by eapply F3.
      * intros j i v c Hx. by destruct (Hgb j i v c).
    + specialize (Hp b). rewrite Hb, decide_False in Hp by done. destruct (y_agents y !! b) as [bg0|] eqn:Hb0; [|done].
      injection Hp as ->. destruct (F b bg0 Hb0) as [F1 F2 F3 F4]. split; try done.
      * by rewrite Hc.
      * intros j p r s. rewrite Hsa. apply F3.
      * intros j i v c. rewrite Hsa. apply F4.
  - intros j s. rewrite Hsa. intros Hs'. destruct (G j s Hs') as (d & Hd & Hd'). exists d. split; [|done].
    rewrite Hl. unfold sections in *. rewrite map_app, concat_app. fold (sections j es). unfold sections. rewrite Hs, app_nil_r. done.
Qed.

Lemma same_st_refl (d : sst P) : same_st d d.
Proof. done. Qed.
Lemma same_st_trans (d1 d2 d3 : sst P) : same_st d1 d2 → same_st d2 d3 → same_st d1 d3.
Proof. intros (A & B & C) (D & E & F). split_and!; [congruence| |congruence]. intros i. by rewrite B. Qed.
Lemma pend_after_same budget m (pd pd' : N → option K) : same_pend pd pd' → same_pend (pend_after budget m pd) (pend_after budget m pd').
Proof.
  intros H i. destruct m; simpl; unfold pdel; try done; rewrite ?H; try done.
  destruct (admission _ _ _ _).2; [done|]. by rewrite H.
Qed.
Lemma sdoes_same cap budget (d1 d2 : sst P) (o : sop P) r d' : same_st d1 d2 → sdoes cap budget d2 o r d' → sdoes cap budget d1 o r d'.
Proof.
  destruct d1 as [c1 p1 n1], d2 as [c2 p2 n2], d' as [c' p' n']. intros (A & B & C). simpl in *. subst c2 n2.
  assert (∀ q, same_pend q p2 → same_pend q p1) as Hq by (intros q Hq i; by rewrite Hq).
  destruct o as [m|k|rs id v wl|id], r as [o|v0|id0|id0|v0|]; try done.
  - intros (H1 & H2 & H3 & H4). split_and!; try done. intros i. rewrite H3. apply pend_after_same. intros i'. by rewrite B.
  - intros (? & ? & ? & ?). split_and!; auto.
  - intros (? & (k' & ? & ?) & ? & ? & ?). split_and!; auto. exists k'. by rewrite B.
  - intros (? & H2 & ? & ? & H5 & ?). split_and!; auto.
    + intros i k'. rewrite B. apply H2.
    + intros i. rewrite H5. unfold pset. case_decide; [done|by rewrite B].
  - intros (k & es & rs' & ? & ? & ? & H4 & ?). exists k, es, rs'. split_and!; auto; [by rewrite B|].
    intros i. rewrite H4. unfold pset. case_decide; [done|by rewrite B].
  - intros (? & ? & ? & ? & ?). split_and!; auto. by rewrite B.
  - intros (? & H2 & ?). split_and!; auto. intros i. rewrite H2. unfold pset. case_decide; [done|by rewrite B].
Qed.
Lemma sections_app j (g g' : list (nat * cevent P)) : sections j (g ++ g') = sections j g ++ sections j g'.
Proof. unfold sections. by rewrite map_app, concat_app. Qed.

(* what happened to the shard is nothing, or one critical section *)
Definition explained cap budget s s' (h : list (sop P * sres P)) : Prop :=
  (h = [] ∧ same_st (abs s) (abs s')) ∨ (∃ o r, h = [(o, r)] ∧ sdoes cap budget (abs s) o r (abs s')).

(* a step that replaces shard j *)
Lemma cinv_put budget ghosts cap e y y' a ag x' j s s' : CInv budget ghosts cap e y → y_agents y !! a = Some ag → only_pc y y' a x' →
  shard_at y j = Some s → y_cache y' = with_shard (y_cache y) j s' →
  (∀ i s0, shard_at y' i = Some s0 → ∃ d, lg_ok cap budget i (sections i (y_log y')) d ∧ same_st d (abs s0)) →
  Inv s' → cfg s' = cfg s →
  (∀ h, h ∈ holds a x' → h ∈ holds a (a_pc ag) ∨ excl y a h) →
  (∀ j, j ∈ pc_shards x' → j ∈ pc_shards (a_pc ag)) → pc_shape x' →
  (∀ i p r, part_of x' = Some (i, p, r) → i = j ∧ hgood s' p) →
  (∀ b bg p r, b ≠ a → y_agents y !! b = Some bg → part_of (a_pc bg) = Some (j, p, r) → hgood s p → hgood s' p) →
  (∀ b bg i v c r, b ≠ a → y_agents y !! b = Some bg → a_pc bg = GBump j i v c →
     its_of s !! i = Some (Some (Resident r)) → ∃ r', its_of s' !! i = Some (Some (Resident r'))) →
  (∀ i t v c, x' = GBump i t v c → i = j ∧ ∃ r, its_of s' !! t = Some (Some (Resident r))) →
  (∀ l, LInv (lview y' l)) → CInv budget ghosts cap e y'.
Proof.
  intros HC Ha Hp Hj Hc Hex HI' Hcfg Hh Hjs Hsh Hpt Hg Hb Hb' HL. destruct (HC) as [A B C D E F G].
  assert (j < length (sc_shards (y_cache y))) as Hlt by (by eapply lookup_lt_Some).
  assert (∀ i, shard_at y' i = if decide (i = j) then Some s' else shard_at y i) as Hsa.
  { intros i. unfold shard_at. rewrite Hc. simpl. case_decide; [subst; by apply list_lookup_insert|by apply list_lookup_insert_ne]. }
  assert (length (sc_shards (y_cache y')) = length (sc_shards (y_cache y))) as Hlen by (rewrite Hc; simpl; by rewrite insert_length).
  split.
  - by rewrite Hlen.
  - by rewrite Hc.
  - intros i s0. rewrite Hsa. case_decide; [|apply C]. intros [= <-]. split; [done|]. rewrite Hcfg. by destruct (C j s Hj).
  - done.
  - by eapply lock_step.
  - intros b bg Hbb. destruct (decide (b = a)) as [->|Hne].
    + assert (a_pc bg = x') as -> by (specialize (Hp a); rewrite Hbb, decide_True in Hp by done; by injection Hp as ->).
      destruct (F a ag Ha) as [F1 F2 F3 F4]. split; [|done| |].
      * rewrite Forall_forall in F1 |- *. rewrite Hlen. intros i Hi. by apply F1, Hjs.
      * intros i p r s0 H1. destruct (Hpt i p r H1) as [-> H2]. rewrite Hsa, decide_True by done. by intros [= <-].
      * intros i t v c Hx. destruct (Hb' i t v c Hx) as [-> [r Hr]]. exists s', r. by rewrite Hsa, decide_True.
    + specialize (Hp b). rewrite Hbb, decide_False in Hp by done. destruct (y_agents y !! b) as [bg0|] eqn:Hb0; [|done].
      injection Hp as ->. destruct (F b bg0 Hb0) as [F1 F2 F3 F4]. split; try done.
      * by rewrite Hlen.
      * intros i p r s0 H1. rewrite Hsa. case_decide; [subst i|by eapply F3]. intros [= <-].
        eapply Hg; [exact Hne|exact Hb0|exact H1|]. by eapply F3.
      * intros i t v c Hx. rewrite Hsa. destruct (F4 i t v c Hx) as (s0 & r & H1 & H2). case_decide; [subst i|eauto].
        rewrite Hj in H1. injection H1 as ->. destruct (Hb b bg0 t v c r Hne Hb0 Hx H2) as [r' Hr']. eauto.
  - exact Hex.
Qed.
Lemma cinv_shard budget ghosts cap e y y' a ag x' j s s' es : CInv budget ghosts cap e y → y_agents y !! a = Some ag → only_pc y y' a x' →
  shard_at y j = Some s → y_cache y' = with_shard (y_cache y) j s' → y_log y' = y_log y ++ es →
  (∀ i, i ≠ j → sections i es = []) → explained cap budget s s' (sections j es) →
  Inv s' → cfg s' = cfg s →
  (∀ h, h ∈ holds a x' → h ∈ holds a (a_pc ag) ∨ excl y a h) →
  (∀ j, j ∈ pc_shards x' → j ∈ pc_shards (a_pc ag)) → pc_shape x' →
  (∀ i p r, part_of x' = Some (i, p, r) → i = j ∧ hgood s' p) →
  (∀ b bg p r, b ≠ a → y_agents y !! b = Some bg → part_of (a_pc bg) = Some (j, p, r) → hgood s p → hgood s' p) →
  (∀ b bg i v c r, b ≠ a → y_agents y !! b = Some bg → a_pc bg = GBump j i v c →
     its_of s !! i = Some (Some (Resident r)) → ∃ r', its_of s' !! i = Some (Some (Resident r'))) →
  (∀ i t v c, x' = GBump i t v c → i = j ∧ ∃ r, its_of s' !! t = Some (Some (Resident r))) →
  (∀ l, LInv (lview y' l)) → CInv budget ghosts cap e y'.
Proof.
  intros HC Ha Hp Hj Hc Hl Hs Hex. intros. eapply cinv_put; try done. intros i s0.
  assert (shard_at y' i = if decide (i = j) then Some s' else shard_at y i) as ->.
  { assert (j < length (sc_shards (y_cache y))) as Hlt by (by eapply lookup_lt_Some).
    unfold shard_at. rewrite Hc. simpl. case_decide; [subst; by apply list_lookup_insert|by apply list_lookup_insert_ne]. }
  rewrite Hl, sections_app. case_decide.
  - subst i. intros [= <-]. destruct (ci_legal _ _ _ _ _ HC j s Hj) as (d & Hd & Hd'). destruct Hex as [[-> He]|(z & r & -> & Hz)].
    + exists d. rewrite app_nil_r. split; [done|]. by eapply same_st_trans.
    + exists (abs s'). split; [|apply same_st_refl]. eapply lg_next; [exact Hd|]. by eapply sdoes_same.
  - rewrite Hs, app_nil_r by done. apply (ci_legal _ _ _ _ _ HC).
Qed.
End concinv.
