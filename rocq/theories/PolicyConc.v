(* Every shard of the sync cache follows the machine of PolicyShared.v. *)
From stdpp Require Import prelude list functions.
From Verif Require Export ConcLast ConcStats PolicyStep PolicyShared.

Section polconc.
Context {P : Params} (LW : Lawful P) (PI : ptr_ids P = true).
Notation K := (K P). Notation V := (V P).
Notation shard := (shard P). Notation shared := (shared P). Notation policy := (policy P).
Implicit Types (s : shard) (k : K) (v : V) (h : shared) (lim : limits) (z : sect P) (r : xret P).

Record SRel lim s h : Prop := {
  sr_rel : Rel lim s (h_pol h);
  sr_open : same_pend (h_open h) (pend_of s);
  sr_next : h_next h = sh_nph s;
}.

Definition looks z : bool := match z with XCmd m => reads m | _ => false end.
Lemma pset_same id o (pd pd' : N → option K) : same_pend pd pd' → same_pend (pset id o pd) (pset id o pd').
Proof. intros H i. unfold pset. by destruct (decide _). Qed.
Lemma same_pend_trans (a b c : N → option K) : same_pend a b → same_pend b c → same_pend a c.
Proof. intros H1 H2 i. by rewrite H1. Qed.
Lemma same_pend_sym (a b : N → option K) : same_pend a b → same_pend b a.
Proof. intros H i. by rewrite H. Qed.
Lemma rel_open lim s p k id : Rel lim s p → pend_of s id = Some k → ∃ t q, ph_at s t = Some (q, true) ∧ ph_id (p_shared q) = id ∧ p_key q = k ∧
  q_loads p k = Some (k, p_hot q).
Proof.
  intros HR Hp. apply pend_Some in Hp as (t & q & Hq & Hid & Hk); [|by eapply Rel_inv]. exists t, q. split_and!; try done.
  destruct HR as [T HR]. apply (R_loads _ _ _ _ HR). exists t, q. split_and!; try done. apply (keqb_refl _ LW).
Qed.

Lemma xexec_sim lim (wt : N → Prop) s h z s' r : (∀ rs p ref v wl, z = XFill rs p ref v wl → ref = true ↔ wt (ph_id p)) → SRel lim s h → (looks z = false → h_uses h = []) → sync_sect z → (∀ k, z ≠ XCmd (CGet k)) →
  (∀ p, handle_of z = Some p → hgood s p) → xexec s z = Ok (s', r) →
  ∃ h', section_does lim wt h (op_of z) (res_of r) h' ∧ SRel lim s' h' ∧ h_uses h' = h_uses h ∧ (looks z = true → s' = s).
Proof.
  intros Hwt [HR Ho Hn] Hu Hz Hg Hh Hx. pose proof (Rel_inv _ _ _ HR) as HI.
  destruct (rel_target _ _ _ HR) as [Htg Hcap].
  pose proof (xexec_spec LW PI s z HI Hz Hh) as Hok. rewrite Hx in Hok. simpl in Hok.
  pose proof (xo_does _ _ _ _ Hok) as Hd. rewrite Htg, Hcap in Hd.
  destruct z as [m|k|rs p ref v wl|p]; cbn [xexec] in Hx.
  - apply bind_ok in Hx as ([s1 o] & H1 & H2). injection H2 as <- <-. destruct Hd as (_ & _ & Hd & Hnx).
    destruct (reads m) eqn:Hrd.
    + exists h. destruct (exec_sim LW _ _ _ _ _ _ HR H1) as (q & Hq & HRq).
      assert (s1 = s ∧ q = h_pol h ∧ ∃ k, m = CContains k ∨ m = CPeek k) as (-> & -> & k & Hm).
      { destruct m; try done; [| |]; cbn [exec] in H1.
        - unfold u_contains in H1. apply bind_ok in H1 as (b & _ & H1). injection H1 as <- _. inversion Hq. subst. eauto.
        - by destruct (Hg k).
        - unfold u_peek in H1. apply bind_ok in H1 as (b & _ & H1). injection H1 as <- _. inversion Hq. subst. eauto. }
      split_and!; [|by split|done|done]. by eapply d_look.
    + destruct (exec_sim LW _ _ _ _ _ _ HR H1) as (q & Hq & HRq). specialize (Hu Hrd).
      eexists. split_and!; [by eapply d_call|split; simpl; [done| |congruence]|by simpl|cbn [looks]; congruence].
      apply same_pend_sym. eapply same_pend_trans; [exact Hd|]. by apply pend_after_same, same_pend_sym.
  - specialize (Hu eq_refl). apply bind_ok in Hx as ([s1 r1] & H1 & H2). injection H2 as <- <-.
    pose proof (rel_upsert LW _ _ _ _ _ _ HR H1) as Hr. destruct r1 as [[t v]|[sh new]].
    + destruct Hr as (x & Hx & -> & Ht & ->). destruct Hd as (_ & _ & Hd & Hnx).
      destruct (rel_bump LW _ _ _ _ _ HR Ht) as (q & Hq & HRq). exists (put_pol h q).
      split_and!; [by eapply d_join_hit|split; simpl; [done| |congruence]|done|done].
      eapply same_pend_trans; [exact Ho|]. by apply same_pend_sym.
    + destruct Hr as (q & h1 & Hst & HRq & Ht & Hm & Hsh & Hk). destruct new.
      * destruct Hd as (_ & Hno & Hid & _ & Hd & Hnx).
        assert (q_loads (h_pol h) k = None) as Hnl.
        { destruct (q_loads (h_pol h) k) as [[k0 st]|] eqn:E; [|done]. exfalso. destruct HR as [T HR].
          apply (R_loads _ _ _ _ HR) in E as (t & h2 & Ht2 & Hk2 & _ & Hkk).
          assert (keqb P k k0 = false) as E2; [|congruence]. eapply (Hno (ph_id (p_shared h2))). apply pend_Some; [done|]. exists t, h2. done. }
        assert (p_key h1 = k) as Hk1 by (inversion Hst as [k0 st [_ Hl]| |]; subst; congruence || done).
        exists (Shared q (pset (h_next h) (Some k) (h_open h)) (h_next h + 1) []). rewrite Hk1 in Hst. split_and!; [|split; simpl; [exact HRq| |]|by simpl|done].
        -- simpl. rewrite Hid, <-Hn. by eapply d_join_new.
        -- rewrite Hn, <-Hid. apply same_pend_sym. eapply same_pend_trans; [exact Hd|]. by apply pset_same, same_pend_sym.
        -- by rewrite Hnx, Hn.
      * destruct Hd as (Hv & (k' & Hp & Hkk) & _ & Hd & Hnx).
        destruct (rel_open _ _ _ _ _ HR Hp) as (t & h2 & Ht2 & Hid2 & Hk2 & Hl2).
        exists h. assert (q = h_pol h ∧ loading (h_pol h) k k' (p_hot h2)) as [-> Hld].
        { assert (q_loads (h_pol h) k = Some (k', p_hot h2)) as Hlk.
          { destruct HR as [T HR]. apply (R_loads _ _ _ _ HR). exists t, h2. done. }
          inversion Hst as [k0 st [Hi Hl]|? (Hi & Hl & _)|(Hi & Hl & _)]; subst; try congruence. split; [done|]. by split. }
        split_and!; [|split; [done| |congruence]|done|done].
        -- simpl. eapply d_join_wait; [done|done|]. by rewrite Ho.
        -- eapply same_pend_trans; [exact Ho|]. by apply same_pend_sym.
  - specialize (Hu eq_refl). specialize (Hh p eq_refl). apply bind_ok in Hx as ([[s1 l1] o] & H1 & H2). injection H2 as <- <-.
    destruct (pend_of s (ph_id p)) as [k|] eqn:Hp.
    + destruct (rel_open _ _ _ _ _ HR Hp) as (t & q1 & Hq1 & Hid & Hk & Hl). destruct (Hh _ _ _ Hq1 Hid) as [Hsh _].
      destruct (ph_id_lt _ _ _ _ HI Hq1) as [_ Ht]. rewrite Hsh in Ht. subst t. apply ph_at_Some in Hq1 as [Ht Hb]. symmetry in Hb. apply bool_decide_eq_true in Hb.
      destruct (rel_fill LW _ _ _ _ _ _ _ _ _ _ _ HR Ht Hb Hsh H1) as (-> & _ & q & Hq & HRq). rewrite Hk in Hq.
      simpl in Hd. destruct Hd as (_ & _ & _ & _ & _ & _ & Hd & Hnx).
      exists (Shared q (pset (ph_id p) None (h_open h)) (h_next h) []). split_and!; [|split; simpl; [exact HRq| |]|by simpl|done].
      * simpl. eapply d_fill; [by eapply Hwt|done|by rewrite Ho|done|exact Hq].
      * simpl. apply same_pend_sym. eapply same_pend_trans; [exact Hd|]. by apply pset_same, same_pend_sym.
      * simpl. congruence.
    + destruct o as [v1|]; [|simpl in Hd; destruct Hd as (k & _ & _ & E & _); congruence].
      pose proof (xo_stale _ _ _ _ Hok v1 eq_refl) as ->. simpl in Hd. destruct Hd as (_ & -> & _).
      exists h. split_and!; [|by split|done|done]. simpl. apply d_stale; [done|]. by rewrite Ho.
  - specialize (Hu eq_refl). specialize (Hh p eq_refl). apply bind_ok in Hx as (s1 & H1 & H2). injection H2 as <- <-.
    destruct Hd as (_ & Hd & Hnx).
    destruct (pend_of s (ph_id p)) as [k|] eqn:Hp.
    + destruct (rel_open _ _ _ _ _ HR Hp) as (t & q1 & Hq1 & Hid & Hk & Hl). destruct (Hh _ _ _ Hq1 Hid) as [Hsh _].
      destruct (ph_id_lt _ _ _ _ HI Hq1) as [_ Ht]. rewrite Hsh in Ht. subst t. apply ph_at_Some in Hq1 as [Ht Hb]. symmetry in Hb. apply bool_decide_eq_true in Hb.
      pose proof (rel_unload LW _ _ _ _ _ _ HR Ht Hb Hsh H1) as HRq. rewrite Hk in HRq.
      exists (Shared (put_load (h_pol h) k None) (pset (ph_id p) None (h_open h)) (h_next h) []). split_and!; [|split; simpl; [exact HRq| |]|by simpl|done].
      * simpl. eapply d_drop; [done|by rewrite Ho].
      * simpl. apply same_pend_sym. eapply same_pend_trans; [exact Hd|]. by apply pset_same, same_pend_sym.
      * simpl. congruence.
    + assert (s1 = s) as ->.
      { pose proof (hgood_owned PI s p HI Hh) as How. rewrite Hp in How. unfold remove_placeholder in H1.
        apply bind_ok in H1 as (o & Hf & H1). destruct o as [i|]; [|by injection H1]. exfalso.
        unfold tfind in Hf. revert Hf. generalize (probe P (sh_map s) (ph_hash p)) as L. intros L. induction L as [|i' L IH]; [done|]. cbn [scan].
        case_bool_decide as Hi; [exact IH|]. subst i'. destruct (entry_at s (ph_idx p)) as [e|] eqn:He; [|done]. cbn [rbind].
        destruct e as [x|q|]; cbn [rbind]; [exact IH| |exact IH]. destruct (same_as (p_shared q) p) eqn:Hsa; [|exact IH]. intros _.
        assert (its_of s !! ph_idx p = Some (Some (Placeholder q))) as Ht.
        { revert He. unfold entry_at, its_of, slab_get, items. rewrite list_lookup_fmap. destruct (ents (sh_ents s) !! ph_idx p) as [w|]; [|done]. simpl.
          destruct (item w); [|done]. by intros [= ->]. }
        unfold owned, ph_at in How. rewrite Ht, Hsa in How. done. }
      exists h. split_and!; [|by split|done|done]. simpl. apply d_drop_gone; [done|]. by rewrite Ho.
Qed.

(* ---- gets under way ---- *)
Notation sys := (sys P). Notation pc := (pc P). Notation agent := (agent P).
Implicit Types (a b : nat) (j : nat) (y : sys) (x : pc) (ag : agent).
Definition bump_key j s x : option K :=
  match x with
  | GBump j' i _ _ =>
      if decide (j' = j) then match its_of s !! i with Some (Some (Resident r)) => Some (r_key r) | _ => None end else None
  | _ => None
  end.
Definition under_way (X : list pc) j s : list K := omap (bump_key j s) X.
Definition pcs y : list pc := map a_pc (y_agents y).
Definition quiet_pc j x : Prop := match x with GBump j' _ _ _ => j' ≠ j | _ => True end.
Lemma quiet_key j s x : quiet_pc j x → bump_key j s x = None.
Proof. destruct x; try done. simpl. intros. by rewrite decide_False. Qed.
Lemma under_way_insert X a x x' j s : X !! a = Some x → ∃ R, under_way X j s ≡ₚ option_list (bump_key j s x) ++ R ∧
  under_way (<[a := x']> X) j s ≡ₚ option_list (bump_key j s x') ++ R.
Proof.
  intros Ha. exists (under_way (take a X) j s ++ under_way (drop (S a) X) j s). unfold under_way.
  rewrite insert_take_drop by (by eapply lookup_lt_Some). rewrite <-(take_drop_middle X a x Ha) at 1. rewrite !omap_app. simpl.
  destruct (bump_key j s x), (bump_key j s x'); simpl; split; solve_Permutation.
Qed.
Lemma under_way_none X j s : Forall (quiet_pc j) X → under_way X j s = [].
Proof. induction 1 as [|x X Hx _ IH]; [done|]. unfold under_way in *. simpl. by rewrite (quiet_key _ _ _ Hx). Qed.
Lemma under_way_quiet_all y j s : (∀ a ag i v c, y_agents y !! a = Some ag → a_pc ag ≠ GBump j i v c) → under_way (pcs y) j s = [].
Proof.
  intros H. apply under_way_none, Forall_forall. intros x Hx. unfold pcs in Hx. apply elem_of_list_fmap in Hx as (ag & -> & Hag).
  apply elem_of_list_lookup in Hag as [a Ha]. destruct (a_pc ag) eqn:E; try done. simpl. intros ->. by eapply H.
Qed.
Lemma under_way_ext X j s s' : (∀ i (rr : resident P), its_of s !! i = Some (Some (Resident rr)) → ∃ rr' : resident P, its_of s' !! i = Some (Some (Resident rr')) ∧ r_key rr' = r_key rr) →
  (∀ i (rr' : resident P), its_of s' !! i = Some (Some (Resident rr')) → ∃ rr : resident P, its_of s !! i = Some (Some (Resident rr))) →
  under_way X j s' = under_way X j s.
Proof.
  intros H1 H2. unfold under_way. assert (∀ x, bump_key j s' x = bump_key j s x) as He.
  { intros x. destruct x; try done. simpl. case_decide; [|done]. destruct (its_of s !! i) as [[[r| |]|]|] eqn:E.
    - destruct (H1 _ _ E) as (r' & -> & ->). done.
    - destruct (its_of s' !! i) as [[[r'| |]|]|] eqn:E'; try done. destruct (H2 _ _ E'). congruence.
    - destruct (its_of s' !! i) as [[[r'| |]|]|] eqn:E'; try done. destruct (H2 _ _ E'). congruence.
    - destruct (its_of s' !! i) as [[[r'| |]|]|] eqn:E'; try done. destruct (H2 _ _ E'). congruence.
    - destruct (its_of s' !! i) as [[[r'| |]|]|] eqn:E'; try done. destruct (H2 _ _ E'). congruence. }
  induction X as [|x X IH]; [done|]. cbn [omap list_omap]. rewrite He. destruct (bump_key j s x); [f_equal|]; apply IH.
Qed.

Section step.
Context {budget ghosts cap e : N}.
Notation CInv := (CInv budget ghosts cap e). Notation Reach := (@Reach P (full P) budget ghosts cap e).
Let lim := Limits budget ghosts cap.
(* ---- whether somebody waited for the value ---- *)
Definition fill_of x : option (loc * bool) :=
  match x with
  | NGo j p _ (NIns _ _ _ ref) | NUnpark j p _ _ (NIns _ _ _ ref) | NTask j p _ _ (NIns _ _ _ ref)
  | FillWant j p _ _ _ ref | FillIn j p _ _ _ ref => Some (pl j p, ref)
  | _ => None
  end.
Definition put_inv y : Prop := ∀ a ag l ref, y_agents y !! a = Some ag → fill_of (a_pc ag) = Some (l, ref) →
  ∃ g1 v g2, y_log y = g1 ++ (a, EvPut l v) :: g2 ∧ (ref = true ↔ ∃ b, waiting g1 l b).
Lemma put_waited y a ag l ref : put_inv y → proper_log (y_log y) → y_agents y !! a = Some ag → fill_of (a_pc ag) = Some (l, ref) →
  ref = true ↔ waited (y_log y) l.1 l.2.
Proof.
  intros HP HL Ha Hf. destruct (HP _ _ _ _ Ha Hf) as (g1 & v & g2 & Hg & Hr). rewrite Hr. unfold waited. destruct l as [j id]. simpl. split.
  - intros [b Hb]. by exists g1, a, v, g2, b.
  - intros (g1' & a' & v' & g2' & b & Hg' & Hb). exists b. pose proof (HL _ _ _ _ Hg) as [_ H1]. pose proof (HL _ _ _ _ Hg') as [_ H2].
    rewrite Hg in Hg'. apply app_eq_inv in Hg' as [(z & -> & Hz)|(z & -> & Hz)].
    + destruct z as [|z0 z]; [by rewrite app_nil_r|]. injection Hz as <- _. exfalso. eapply (H1 a' v'). apply elem_of_app. right. left.
    + destruct z as [|z0 z]; [by rewrite app_nil_r in Hb|]. injection Hz as <- _. exfalso. eapply (H2 a v). apply elem_of_app. right. left.
Qed.
Lemma put_step dbg y lb y' : Reach y → put_inv y → cstep dbg y lb = Some (Ok y') → put_inv y'.
Proof.
  intros HR HP Hs. pose proof (cstep_stepped LW PI _ _ _ _ (rc_c _ HR) Hs) as Hst.
  assert (∀ a ag x' es us, y_agents y !! a = Some ag → moved y y' a x' es us →
    (∀ l ref, fill_of x' = Some (l, ref) → fill_of (a_pc ag) = Some (l, ref) ∨
      ∃ v, es = [EvPut l v] ∧ (ref = true ↔ ∃ b, waiting (y_log y) l b)) → put_inv y') as Hmv.
  { intros a ag x' es us Ha Hm Hx b bg l ref Hb Hf. rewrite (md_log _ _ _ _ _ _ Hm).
    pose proof (md_lookup _ _ _ _ _ _ b Hm) as Hb'. rewrite Hb in Hb'. destruct (y_agents y !! b) as [bg0|] eqn:Hb0; [|done]. simpl in Hb'. injection Hb' as ->.
    assert (∀ g1 v g2, y_log y = g1 ++ (b, EvPut l v) :: g2 → (ref = true ↔ ∃ c, waiting g1 l c) →
      ∃ g1 v g2, y_log y ++ map (pair a) es = g1 ++ (b, EvPut l v) :: g2 ∧ (ref = true ↔ ∃ c, waiting g1 l c)) as Hold.
    { intros g1 v g2 -> Hr. exists g1, v, (g2 ++ map (pair a) es). by rewrite <-app_assoc. }
    destruct (decide (b = a)) as [->|Hne].
    - rewrite Ha in Hb0. injection Hb0 as <-. simpl in Hf. destruct (Hx _ _ Hf) as [Hf'|(v & -> & Hr)].
      + destruct (HP _ _ _ _ Ha Hf') as (g1 & v & g2 & Hg & Hr). by eapply Hold.
      + by exists (y_log y), v, [].
    - assert (a_pc (eff_on b us bg0) = a_pc bg0) as Epc by apply eff_pc. rewrite Epc in Hf.
      destruct (HP _ _ _ _ Hb0 Hf) as (g1 & v & g2 & Hg & Hr). by eapply Hold. }
  destruct Hst as [a ag x' es us Ha M Hm|lb a ag x' es Ha M Hm|c x Hf ->|d ->].
  - eapply Hmv; [exact Ha|exact Hm|]. intros l ref Hf.
    assert ((∃ j p rs v wl, a_pc ag = IIn j p rs v wl) ∨ (∀ j p rs v wl, a_pc ag ≠ IIn j p rs v wl)) as [(j & p & rs & v & wl & Hpc)|Hni] by (destruct (a_pc ag); eauto 10).
    + right. exists v. cbn [cstep] in Hs. unfold go in Hs. rewrite Ha, Hpc in Hs. cbn [wants] in Hs. unfold act in Hs. rewrite Hpc in Hs.
      injection Hs as Hs. assert (es = [EvPut (pl j p) v]) as ->.
      { pose proof (md_log _ _ _ _ _ _ Hm) as Hl. rewrite <-Hs in Hl. simpl in Hl. apply app_inv_head in Hl. destruct es as [|e0 [|e1 es]]; simpl in Hl; by simplify_eq. }
      assert (x' = NGo j p (waiting_on y (pl j p)) (NIns rs v wl (match waiting_on y (pl j p) with [] => false | _ => true end))) as ->.
      { pose proof (md_lookup _ _ _ _ _ _ a Hm) as Hl. rewrite Ha in Hl. simpl in Hl. rewrite decide_True in Hl by done.
        assert (a_pc <$> y_agents y' !! a = Some x') as Hl2 by (by rewrite Hl). rewrite <-Hs in Hl2.
        cbn [logged y_agents] in Hl2. rewrite (pc_goto _ a _ ag) in Hl2 by done. by injection Hl2. }
      simpl in Hf. injection Hf as <- <-. split; [done|].
      pose proof (role_of y a ag j p QGuard Ha ltac:(by rewrite Hpc)) as Hr. destruct (waiting_on y (pl j p)) as [|[b t] ws] eqn:Hw.
      * split; [done|]. intros [b Hb]. by destruct (guard_alone _ _ _ HR Hr Hw b).
      * split; [|done]. intros _. exists b. eapply (queue_waiting _ _ _ t HR). rewrite Hw. left.
    + left. remember (a_pc ag) as x eqn:Epc. clear Hmv Hm Hs HP HR. destruct M; simpl in *; try done.
      * destruct x; try done; simpl in Hf; repeat match goal with H : context [match ?w with _ => _ end] |- _ => destruct w; try done end.
      * by destruct H as [-> | ->].
      * by destruct H.
      * by destruct sm.
      * by destruct md as [[]|].
      * by destruct H0.
      * by destruct H1.
      * by edestruct Hni.
  - eapply Hmv; [exact Ha|exact Hm|]. intros l ref Hfl. destruct M; done.
  - intros b bg l ref Hb Hfl. simpl in Hb. apply lookup_app_Some in Hb as [Hb|[_ Hb]].
    + destruct (HP _ _ _ _ Hb Hfl) as (g1 & v & g2 & Hg & Hr). exists g1, v, (g2 ++ [(length (y_agents y), EvCall c)]). simpl. rewrite Hg, <-app_assoc. by split.
    + apply list_lookup_singleton_Some in Hb as [_ <-]. simpl in Hfl. exfalso. revert Hf Hfl. unfold first_pc.
      destruct c as [m|k to|k]; [destruct (sync_cmd m); [destruct (key_of m)|done]|..]; simpl;
        try (destruct (shard_for _ _); [|done]); simpl; intros [= <-]; try done. by destruct m.
  - done.
Qed.
Lemma put_all dbg ls y : execution dbg budget ghosts cap e ls y → put_inv y.
Proof.
  unfold execution. intros H. remember (sys_new budget ghosts cap e) as y0. induction H as [|y0 ls y1 lb y2 H IH Hs].
  - subst. done.
  - subst y0. eapply put_step; [|by apply IH|done]. by apply (reach LW PI _ _ _ H).
Qed.
Definition trans (wt : N → Prop) j a (es : list (cevent P)) h h' : Prop :=
  (sections j (map (pair a) es) = [] ∧ (h' = h ∨ counts h h')) ∨
  ∃ o (u : sres P) g, es = EvSec j o u :: g ∧ forallb no_sec g = true ∧ section_does lim wt h o u h'.
Definition follows y y' x' a (es : list (cevent P)) : Prop := ∀ j s h, shard_at y j = Some s → SRel lim s h →
  h_uses h ≡ₚ under_way (pcs y) j s → ∃ s' h', shard_at y' j = Some s' ∧ SRel lim s' h' ∧
  h_uses h' ≡ₚ under_way (<[a := x']> (pcs y)) j s' ∧ trans (waited (y_log y) j) j a es h h'.

Lemma under_way_quiet y a ag x' j s : y_agents y !! a = Some ag → quiet_pc j (a_pc ag) → quiet_pc j x' →
  under_way (<[a := x']> (pcs y)) j s ≡ₚ under_way (pcs y) j s.
Proof.
  intros Ha Hx Hx'. destruct (under_way_insert (pcs y) a (a_pc ag) x' j s) as (R & H1 & H2).
  { unfold pcs. by rewrite list_lookup_fmap, Ha. }
  rewrite H1, H2. by rewrite !quiet_key.
Qed.
Lemma follows_same y y' x' a ag es : y_agents y !! a = Some ag → y_cache y' = y_cache y → idle (a_pc ag) = true → idle x' = true →
  forallb no_sec es = true → follows y y' x' a es.
Proof.
  intros Ha Hc Hx Hx' Hes j s h Hj HS Hu. exists s, h. split; [unfold shard_at; by rewrite Hc|]. split; [done|]. split.
  - rewrite Hu. symmetry. eapply under_way_quiet; [done|by destruct (a_pc ag)|by destruct x'].
  - left. rewrite no_secs by done. split; [done|by left].
Qed.
(* a step that changes shard j and is nothing for the machine *)
Lemma follows_stat y y' x' a ag es j s s' : y_agents y !! a = Some ag → shard_at y j = Some s → y_cache y' = with_shard (y_cache y) j s' →
  (∀ h, SRel lim s h → SRel lim s' h) → its_of s' = its_of s → (∀ i, quiet_pc i (a_pc ag)) → (∀ i, quiet_pc i x') → forallb no_sec es = true →
  follows y y' x' a es.
Proof.
  intros Ha Hj Hc HS Hit Hx Hx' Hes i s0 h Hi HS0 Hu. unfold shard_at. rewrite Hc. simpl.
  assert (trans (waited (y_log y) i) i a es h h) as Ht by (left; rewrite no_secs by done; split; [done|by left]).
  destruct (decide (i = j)) as [->|Hne].
  - rewrite Hj in Hi. injection Hi as <-. exists s', h. split; [apply list_lookup_insert; by eapply lookup_lt_Some|]. split; [by apply HS|]. split; [|done].
    rewrite Hu. rewrite <-(under_way_quiet y a ag x' j s) by done. erewrite (under_way_ext _ _ s s'); [done|rewrite Hit; eauto..].
  - exists s0, h. split; [by rewrite list_lookup_insert_ne|]. split; [done|]. split; [|done]. rewrite Hu. symmetry. by eapply under_way_quiet.
Qed.
Lemma no_bump y a ag j b bg : CInv y → y_agents y !! a = Some ag → (LShard j, MW) ∈ holds a (a_pc ag) → y_agents y !! b = Some bg → b ≠ a →
  quiet_pc j (a_pc bg).
Proof.
  intros HC Ha Hh Hb Hne. destruct (a_pc bg) eqn:Hpc; try done. simpl. intros ->.
  assert (compat (LShard j, MW) (LShard j, MR) = true) as Hcm.
  { eapply (ci_lock _ _ _ _ _ HC a b ag bg); [done|done|done|done|]. rewrite Hpc. simpl. by left. }
  unfold compat in Hcm. simpl in Hcm. by rewrite decide_True in Hcm.
Qed.
Lemma follows_section y y' a ag z j y1 r x' g : CInv y → y_agents y !! a = Some ag → sync_sect z → (∀ k, z ≠ XCmd (CGet k)) →
  (∀ p s, handle_of z = Some p → shard_at y j = Some s → hgood s p) →
  (looks z = false → (LShard j, MW) ∈ holds a (a_pc ag)) →
  (∀ rs p ref v wl, z = XFill rs p ref v wl → ref = true ↔ waited (y_log y) j (ph_id p)) →
  section y a j z = Ok (y1, r) → y_cache y' = y_cache y1 → idle (a_pc ag) = true → idle x' = true → forallb no_sec g = true →
  follows y y' x' a (EvSec j (op_of z) (res_of r) :: g).
Proof.
  intros HC Ha Hz Hg Hh Hw Hwt Hs Hc Hx Hx' Hn i s0 h Hi HS Hu. apply section_eq in Hs as (s & s' & Hj & Hxe & ->).
  assert (∀ i, quiet_pc i (a_pc ag)) as Hq by (intros; by destruct (a_pc ag)). assert (∀ i, quiet_pc i x') as Hq' by (intros; by destruct x').
  unfold shard_at. rewrite Hc. simpl. destruct (decide (j = i)) as [->|Hne].
  - rewrite Hj in Hi. injection Hi as <-.
    assert (looks z = false → Forall (quiet_pc i) (pcs y)) as Hfa.
    { intros Hl. apply Forall_forall. intros x Hxi. unfold pcs in Hxi. apply elem_of_list_fmap in Hxi as (bg & -> & Hbg).
      apply elem_of_list_lookup in Hbg as [b Hb]. destruct (decide (b = a)) as [->|Hba]; [rewrite Ha in Hb; injection Hb as <-; done|].
      eapply (no_bump y a ag i b bg); try done. by apply Hw. }
    destruct (xexec_sim lim (waited (y_log y) i) s h z s' r Hwt HS) as (h' & Hd & HS' & Huh & Hsame); try done.
    { intros Hl. rewrite (under_way_none _ _ _ (Hfa Hl)) in Hu. by apply Permutation_nil_r. }
    { intros p Hp. by eapply Hh. }
    exists s', h'. split; [apply list_lookup_insert; by eapply lookup_lt_Some|]. split; [done|]. split; [|right; by eexists _, _, _].
    rewrite Huh, Hu. destruct (looks z) eqn:Hl.
    + rewrite (Hsame eq_refl). symmetry. by eapply under_way_quiet.
    + rewrite (under_way_none _ _ _ (Hfa eq_refl)). rewrite under_way_none; [done|]. apply Forall_insert; [by apply Hfa|done].
  - exists s0, h. split; [by rewrite list_lookup_insert_ne|]. split; [done|]. split; [|left; rewrite ?one_sec, ?decide_False by done; split; [done|by left]].
    rewrite Hu. symmetry. by eapply under_way_quiet.
Qed.
Lemma follows_found y y' a ag j k c s i rr : y_agents y !! a = Some ag → a_pc ag = GIn j k c → shard_at y j = Some s → y_cache y' = y_cache y →
  its_of s !! i = Some (Some (Resident rr)) → keqb P k (r_key rr) = true →
  follows y y' (if (r_ref rr <? MAX_F)%N then GBump j i (r_val rr) c else GHit j (r_val rr) c) a [EvSec j (OCmd (CGet k)) (SO (plain (RVal (Some (r_val rr)))))].
Proof.
  intros Ha Hpc Hj Hc Hi Hk i0 s0 h Hi0 HS Hu. change MAX_F with 2%N.
  destruct (under_way_insert (pcs y) a (a_pc ag) (if (r_ref rr <? 2)%N then GBump j i (r_val rr) c else GHit j (r_val rr) c) i0 s0) as (R & H1 & H2).
  { unfold pcs. by rewrite list_lookup_fmap, Ha. }
  rewrite Hpc in H1. simpl in H1. destruct (decide (j = i0)) as [->|Hne].
  - rewrite Hj in Hi0. injection Hi0 as <-.
    eexists s, _. split; [unfold shard_at; by rewrite Hc|]. split; [|split; [|right; eexists _, _, _; split; [done|]; split; [done|]; eapply (d_hit lim _ h k rr); by eapply rel_item_of; [apply HS|..]]].
    + destruct HS as [A1 A2 A3]. by split.
    + rewrite H2. simpl. destruct (r_ref rr <? 2)%N; simpl.
      * rewrite decide_True by done. rewrite Hi. simpl. by rewrite Hu, H1.
      * by rewrite Hu, H1.
  - exists s0, h. split; [unfold shard_at; by rewrite Hc|]. split; [done|]. split; [|left; rewrite ?one_sec, ?decide_False by done; split; [done|by left]].
    rewrite Hu, H1, H2. destruct (r_ref rr <? 2)%N; simpl; [|done]. by rewrite decide_False.
Qed.
Lemma follows_missed y y' a ag j k c s : y_agents y !! a = Some ag → a_pc ag = GIn j k c → shard_at y j = Some s → y_cache y' = y_cache y →
  noresident s k → follows y y' (GMiss j k c) a [EvSec j (OCmd (CGet k)) (SO (plain (RVal None)))].
Proof.
  intros Ha Hpc Hj Hc Hk i0 s0 h Hi0 HS Hu.
  assert (h_uses h ≡ₚ under_way (<[a:=GMiss j k c]> (pcs y)) i0 s0) as Hu'.
  { rewrite Hu. symmetry. eapply under_way_quiet; [done|by rewrite Hpc|done]. }
  exists s0, h. split; [unfold shard_at; by rewrite Hc|]. split; [done|]. split; [done|]. destruct (decide (j = i0)) as [->|Hne].
  - rewrite Hj in Hi0. injection Hi0 as <-. right. eexists _, _, _. split; [done|]. split; [done|]. apply d_miss. by apply (rel_no_item lim s); [apply HS|].
  - left. rewrite one_sec, decide_False by done. split; [done|by left].
Qed.
Lemma follows_bump y y' a ag j i v c s rr : y_agents y !! a = Some ag → a_pc ag = GBump j i v c → shard_at y j = Some s →
  its_of s !! i = Some (Some (Resident rr)) →
  y_cache y' = with_shard (y_cache y) j (set_entry s i (Resident (set_key_ref rr ((r_ref rr + 1) mod 65536)))) → follows y y' (GHit j v c) a [].
Proof.
  intros Ha Hpc Hj Hi Hc i0 s0 h Hi0 HS Hu. unfold shard_at. rewrite Hc. simpl.
  destruct (under_way_insert (pcs y) a (a_pc ag) (GHit j v c) i0 s0) as (R & H1 & H2).
  { unfold pcs. by rewrite list_lookup_fmap, Ha. }
  rewrite Hpc in H1. simpl in H1, H2. destruct (decide (j = i0)) as [->|Hne].
  - rewrite Hj in Hi0. injection Hi0 as <-. rewrite Hi in H1. simpl in H1.
    destruct (rel_same LW lim s (h_pol h) rr (used_once rr) i) as (q & Hq & HRq); try done; [apply HS|apply (keqb_refl _ LW)|].
    pose proof (Permutation_trans Hu H1) as Hu'. symmetry in Hu'. 
    destruct (elem_of_list_split (h_uses h) (r_key rr)) as (A & B & HAB). { rewrite <-Hu'. by left. }
    set (s' := set_entry s i (Resident (used_once rr))) in *.
    assert (its_of s' = <[i := Some (Resident (used_once rr))]> (its_of s)) as Hits by (by eapply its_set_entry).
    assert (i < length (its_of s)) as Hlt by by eapply lookup_lt_Some.
    exists s', (Shared q (h_open h) (h_next h) (A ++ B)). split; [apply list_lookup_insert; by eapply lookup_lt_Some|]. split; [|split].
    + destruct HS as [A1 A2 A3]. split; [done| |done]. simpl. eapply same_pend_trans; [exact A2|]. apply pend_ext; [by eapply Rel_inv..|].
      intros t. unfold ph_at, mapped. rewrite Hits. destruct (decide (t = i)) as [->|Hti]; [rewrite list_lookup_insert by done; by rewrite Hi|by rewrite list_lookup_insert_ne].
    + simpl. rewrite (under_way_ext _ _ s s'), H2.
      * rewrite HAB in Hu'. apply Permutation_cons_app_inv in Hu'. by rewrite Hu'.
      * intros t r Ht. rewrite Hits. destruct (decide (t = i)) as [->|Hti]; [|rewrite list_lookup_insert_ne by done; eauto].
        rewrite list_lookup_insert by done. rewrite Hi in Ht. injection Ht as <-. eexists. by split.
      * intros t r. rewrite Hits. destruct (decide (t = i)) as [->|Hti]; [eauto|]. rewrite list_lookup_insert_ne by done. eauto.
    + left. split; [done|]. right. apply (counts_use h A (r_key rr) B rr q); [done| |done]. split; [|apply (keqb_refl _ LW)].
      apply (item_tok lim s); [apply HS|]. eauto.
  - exists s0, h. split; [by rewrite list_lookup_insert_ne|]. split; [done|]. split; [|left; rewrite ?one_sec, ?decide_False by done; split; [done|by left]]. by rewrite Hu, H1, H2.
Qed.

Lemma SRel_hit s h : SRel lim s h → SRel lim (record_hit s) h.
Proof.
  intros [A B C]. split; [by apply rel_hit| |done]. eapply same_pend_trans; [exact B|]. pose proof (rel_hit _ _ _ A) as A'. apply same_pend_sym, pend_ext; [by eapply Rel_inv..|done].
Qed.
Lemma SRel_miss s h : SRel lim s h → SRel lim (record_miss s) h.
Proof.
  intros [A B C]. split; [by apply rel_miss| |done]. eapply same_pend_trans; [exact B|]. pose proof (rel_miss _ _ _ A) as A'. apply same_pend_sym, pend_ext; [by eapply Rel_inv..|done].
Qed.
Local Ltac via HM := match goal with Hsame : idle _ = true → _ |- _ => apply Hsame;
  [done|inversion HM; subst; try congruence; try done|inversion HM; subst; try congruence; try done|try done] end.
Lemma act_follows dbg y a ag y' : CInv y → put_inv y → proper_log (y_log y) → y_agents y !! a = Some ag → wants a (a_pc ag) = None → act dbg y a ag = Some (Ok y') →
  ∃ x' es us, moved y y' a x' es us ∧ follows y y' x' a es.
Proof.
  intros HC HP Hlog Ha Hw Hact. destruct (act_mv LW PI _ _ _ _ _ HC Ha Hw Hact) as (x' & es & us & HM & Hm).
  exists x', es, us. split; [done|].
  assert (∀ X ES, a_pc (P:=P) <$> y_agents y' !! a = Some X → y_log y' = y_log y ++ map (pair a) ES → follows y y' X a ES →
    follows y y' x' a es) as Hfix.
  { intros X ES HX HE. rewrite (md_log _ _ _ _ _ _ Hm) in HE. apply app_inv_head in HE. apply (inj (map (pair a))) in HE as <-.
    rewrite (md_lookup _ _ _ _ _ _ _ Hm), Ha in HX. simpl in HX. rewrite decide_True in HX by done. simpl in HX. by injection HX as ->. }
  revert Hact. unfold act. pose proof (po_shape _ _ (ci_pc _ _ _ _ _ HC _ _ Ha)) as Hsh.
  pose proof (λ j (u : lrole P) p s, po_handle _ _ (ci_pc _ _ _ _ _ HC _ _ Ha) j p u s) as Hhg.
  assert (idle (a_pc ag) = true → idle x' = true → forallb no_sec es = true → y_cache y' = y_cache y → follows y y' x' a es) as Hsame.
  { intros ????. by eapply follows_same. }
  assert (∀ z j y1 r X g, section y a j z = Ok (y1, r) → sync_sect z → (∀ k, z ≠ XCmd (CGet k)) →
    (∀ p s, handle_of z = Some p → shard_at y j = Some s → hgood s p) → (looks z = false → (LShard j, MW) ∈ holds a (a_pc ag)) →
    (∀ rs p ref v wl, z = XFill rs p ref v wl → ref = true ↔ waited (y_log y) j (ph_id p)) → y_cache y' = y_cache y1 → idle (a_pc ag) = true → idle X = true → forallb no_sec g = true →
    a_pc <$> y_agents y' !! a = Some X → y_log y' = y_log y1 ++ map (pair a) g → follows y y' x' a es) as Hsec.
  { intros z j y1 r X g Hs ??? Hw2 Hwt ???? HX Hl. eapply Hfix; [exact HX| |by eapply (follows_section y y' a ag z j y1 r X g)].
    rewrite Hl. apply section_eq in Hs as (s & s' & _ & _ & ->). simpl. by rewrite <-app_assoc. }
  assert (∀ z j y1 r, section y a j z = Ok (y1, r) → y_agents y1 = y_agents y) as Hag.
  { intros z j y1 r Hs. by apply section_eq in Hs as (s & s' & _ & _ & ->). }
  destruct (a_pc ag) eqn:Hpc; try done.
  - (* PIn *) destruct (section y a j (XCmd m)) as [[y1 r]|] eqn:E; [|done]. cbn. destruct r as [o| | | | |]; try done. intros [= <-].
    eapply (Hsec (XCmd m) j y1 (XO o) (ADone (RetOut o)) [EvRet (RetOut o)] E); try done; [apply Hsh| | |].
    + intros k [= ->]. by destruct Hsh as [_ Hsh], (Hsh k).
    + simpl. intros ->. by left.
    + eapply pc_goto. by rewrite (Hag _ _ _ _ E).
  - (* PAll *) destruct js; [|done]. intros [= <-]. via HM.
  - (* PAllIn *) destruct (section y a j (XCmd m)) as [[y1 r]|] eqn:E; [|done]. cbn. intros [= <-].
    eapply (Hsec (XCmd m) j y1 r (PAll m js) [] E); try done; [apply Hsh| | | |].
    + intros k [= ->]. by destruct Hsh as [_ Hsh].
    + intros _. simpl. by left.
    + eapply pc_goto. by rewrite (Hag _ _ _ _ E).
    + by rewrite app_nil_r.
  - (* GIn *) unfold get_found. destruct (agent_shard y a ag j HC Ha) as [s Hs]; [rewrite Hpc; by left|]. destruct (ci_inv _ _ _ _ _ HC _ _ Hs) as [HI _].
    unfold read_shard. fold (shard_at y j). rewrite Hs. cbn. destruct (search_resident_spec LW s k HI) as (o & -> & Ho). cbn.
    destruct o as [[i rr]|]; intros [= <-].
    + destruct Ho as (Hi & Hk & _). eapply Hfix; [by eapply pc_goto|by instantiate (1 := [_])|]. by eapply follows_found.
    + destruct Ho as (Hk & _). eapply Hfix; [by eapply pc_goto|by instantiate (1 := [_])|]. by eapply follows_missed.
  - (* GBump *) destruct (po_bump _ _ (ci_pc _ _ _ _ _ HC _ _ Ha) j i v c Hpc) as (s & rr & Hs & Hr).
    unfold read_shard. fold (shard_at y j). rewrite Hs. cbn. unfold fetch_add. rewrite (entry_at_ok _ _ _ Hr). cbn. intros [= <-].
    eapply Hfix; [by eapply pc_goto|by instantiate (1 := []); rewrite app_nil_r|]. by eapply follows_bump.
  - (* GHit *) unfold get_hit. destruct (agent_shard y a ag j HC Ha) as [s Hs]; [rewrite Hpc; by left|].
    unfold read_shard. fold (shard_at y j). rewrite Hs. cbn. intros [= <-].
    eapply Hfix; [by eapply pc_goto|by instantiate (1 := [_])|]. eapply (follows_stat _ _ _ _ ag _ j s (record_hit s)); try done.
    + intros h. apply SRel_hit.
    + by rewrite Hpc.
  - (* GMiss *) unfold get_miss. destruct (agent_shard y a ag j HC Ha) as [s Hs]; [rewrite Hpc; by left|].
    unfold read_shard. fold (shard_at y j). rewrite Hs. cbn. intros [= <-].
    assert (∀ h, SRel lim s h → SRel lim (record_miss s) h) as Hms by apply SRel_miss.
    destruct c.
    + eapply Hfix; [by eapply pc_goto|by instantiate (1 := [_])|]. eapply (follows_stat _ _ _ _ ag _ j s (record_miss s)); try done. by rewrite Hpc.
    + eapply Hfix; [by eapply pc_goto|by instantiate (1 := []); rewrite app_nil_r|]. eapply (follows_stat _ _ _ _ ag _ j s (record_miss s)); try done. by rewrite Hpc.
    + eapply Hfix; [by eapply pc_goto|by instantiate (1 := []); rewrite app_nil_r|]. eapply (follows_stat _ _ _ _ ag _ j s (record_miss s)); try done. by rewrite Hpc.
  - (* JIn *) destruct (section y a j (XJoin k)) as [[y1 r]|] eqn:E; [|done]. pose proof (Hag _ _ _ _ E) as HA.
    cbn. destruct r as [o|v|p|p|v|]; try done; intros [= <-].
    + eapply (Hsec (XJoin k) j y1 _ (ADone (RetVal v None)) [EvRet (RetVal v None)] E); try done; [intros _; by left|]. eapply pc_goto. by rewrite HA.
    + eapply (Hsec (XJoin k) j y1 _ (JPush j p md) [] E); try done; [intros _; by left| |by rewrite app_nil_r]. eapply pc_goto. by rewrite HA.
    + destruct dbg; cbn.
      * eapply (Hsec (XJoin k) j y1 _ (SWant j p SNewLoad) [] E); try done; [intros _; by left| |by rewrite app_nil_r]. eapply pc_goto. by rewrite HA.
      * eapply (Hsec (XJoin k) j y1 _ (AGuard j p) [EvGuard (pl j p)] E); try done; [intros _; by left|]. eapply pc_goto. by rewrite HA.
  - (* SIn *) destruct (at_load y (pl j p)); try done. intros [= <-]. via HM; by destruct sm.
  - (* JPushIn *) unfold push_waiter. destruct (at_load y (pl j p)) eqn:El; try done; intros [= <-].
    + via HM; by destruct md as [[]|].
    + via HM.
  - intros [= <-]. via HM.
  - destruct (a_token ag); [|done]. intros [= <-]. via HM.
  - intros [= <-]. via HM.
  - intros [= <-]. via HM.
  - destruct (a_flag ag) eqn:Ef.
    + intros [= <-]. via HM.
    + unfold Conc.leave. destruct (list_find _ _) as [[i w]|] eqn:E; [|done]. cbn. intros [= <-]. via HM.
  - destruct (at_load y (pl j p)) eqn:El; try done; intros [= <-].
    + via HM; try (match goal with H : starts _ _ _ _ _ _ |- _ => by destruct H end). unfold start_loading. by destruct dbg.
    + via HM; try (match goal with H : starts _ _ _ _ _ _ |- _ => by destruct H end).
  - intros [= <-]. via HM. by destruct (a_flag ag).
  - destruct (a_flag ag) eqn:Ef.
    + destruct (at_load y (pl j p)) eqn:El; intros [= <-]; via HM; try (match goal with H : starts _ _ _ _ _ _ |- _ => by destruct H end).
      unfold start_loading. by destruct dbg.
    + unfold Conc.leave. destruct (list_find _ _) as [[i w]|] eqn:E; [|done]. cbn. intros [= <-]. via HM.
      all: try (match goal with H : starts _ _ _ _ _ _ |- _ => by destruct H end).
  - intros [= <-]. via HM.
  - destruct ws as [|[b [|]] ws]; [destruct nm| |]; try done; intros [= <-]; via HM.
  - intros [= <-]. via HM.
  - intros [= <-]. via HM.
  - (* FillIn *) destruct (section y a j (XFill rs p referenced v wl)) as [[y1 r]|] eqn:E; [|done]. pose proof (Hag _ _ _ _ E) as HA.
    assert (∀ q s0, handle_of (P:=P) (XFill rs p referenced v wl) = Some q → shard_at y j = Some s0 → hgood s0 q) as Hh.
    { intros q s0 [= <-] Hs0. by eapply Hhg. }
    pose proof (put_waited y a ag _ _ HP Hlog Ha ltac:(by rewrite Hpc)) as Hwt.
    cbn. destruct r as [o| | | |v'|]; try done; intros [= <-].
    + eapply (Hsec (XFill rs p referenced v wl) j y1 _ (ADone (RetOut o)) [EvRet (RetOut o)] E); try done; [intros _; by left|by intros ????? [= -> -> -> -> ->]|]. eapply pc_goto. by rewrite HA.
    + eapply (Hsec (XFill rs p referenced v wl) j y1 _ (ADone (RetStale v')) [EvRet (RetStale v')] E); try done; [intros _; by left|by intros ????? [= -> -> -> -> ->]|]. eapply pc_goto. by rewrite HA.
  - (* DIn *) destruct (list.last (waiting_on y (pl j p))) as [w|] eqn:Hl.
    + destruct (step_give y a ag j p w HC Ha Hpc Hl) as [Hld _]. rewrite Hld. cbn. intros [= <-].
      eapply Hfix; [by eapply pc_goto|by instantiate (1 := [_])|]. eapply follows_same; try done. by rewrite Hpc.
    + destruct (section (with_ph y (pl j p) (PSt [] Terminated)) a j (XDrop p)) as [[y1 r]|] eqn:E; [|done]. cbn. intros [= <-].
      apply section_eq in E as (s & s' & Hs & Hx & ->). change (shard_at y j = Some s) in Hs.
      assert (section y a j (XDrop p) = Ok (logged (with_cache y (with_shard (y_cache y) j s')) a (EvSec j (ODrop (ph_id p)) (res_of r)), r)) as Hs2.
      { unfold section, on_shard. fold (shard_at y j). rewrite Hs. cbn [unwrap rbind]. rewrite Hx. done. }
      eapply (Hsec (XDrop p) j _ r (ADone RetDrop) [EvEnd (pl j p); EvRet RetDrop] Hs2); try done.
      * intros q s0 [= <-] Hs0. by eapply Hhg.
      * intros _. by left.
      * by eapply pc_goto.
      * simpl. by rewrite <-!app_assoc.
Qed.

(* ---- every execution ---- *)
Definition followed y : Prop := ∀ j s, shard_at y j = Some s →
  ∃ h, shared_run lim j (y_log y) h ∧ SRel lim s h ∧ h_uses h ≡ₚ under_way (pcs y) j s.
Lemma run_others j g a es h : sections j (map (pair a) es) = [] → shared_run lim j g h → shared_run lim j (g ++ map (pair a) es) h.
Proof.
  revert g. induction es as [|ev es IH]; intros g Hes Hr; [by rewrite app_nil_r|]. simpl. change (?x :: ?l) with ([x] ++ l). rewrite app_assoc.
  change (sections j ([(a, ev)] ++ map (pair a) es) = []) in Hes. rewrite ConcStats.sections_app in Hes. apply app_eq_nil in Hes as [H1 H2].
  apply IH; [done|]. apply run_other; [done|]. intros o r ->. unfold sections in H1. simpl in H1. unfold sec_of in H1. simpl in H1. by rewrite decide_True in H1.
Qed.
Lemma followed_moved y y' a ag x' es us : moved y y' a x' es us → y_agents y !! a = Some ag → follows y y' x' a es → followed y → followed y'.
Proof.
  intros M Ha Hf Hy j s' Hs'. destruct (shard_before _ _ _ _ (md_len _ _ _ _ _ _ M) Hs') as [s Hs].
  destruct (Hy _ _ Hs) as (h & Hr & HS & Hu). destruct (Hf _ _ _ Hs HS Hu) as (s1 & h' & Hs1 & HS' & Hu' & Ht).
  rewrite Hs' in Hs1. injection Hs1 as <-. exists h'. split_and!; [|done|].
  - rewrite (md_log _ _ _ _ _ _ M). destruct Ht as [[Hn [->|Hc]]|(o & u & g & -> & Hn & Hd)].
    + by apply run_others.
    + apply run_others; [done|]. by eapply run_counts.
    + simpl. change (?x :: ?l) with ([x] ++ l). rewrite app_assoc. apply run_others; [by apply no_secs|]. by eapply run_section.
  - rewrite Hu'. unfold pcs. by rewrite (map_pcs _ _ _ _ _ _ _ M Ha).
Qed.
Lemma cstep_followed dbg y lb y' : CInv y → put_inv y → proper_log (y_log y) → cstep dbg y lb = Some (Ok y') → followed y → followed y'.
Proof.
  intros HC HP Hlog Hs Hb.
  assert (∀ a ag x, y_agents y !! a = Some ag → idle (a_pc ag) = true → idle x = true → followed (goto y a x)) as Hgo.
  { intros a ag x Ha Hi Hx. eapply followed_moved; [apply moved_goto|done|by eapply follows_same|done]. }
  destruct lb as [c|a|a|d|a wk|a|a rs v wl|a]; simpl in Hs.
  - destruct (first_pc y c) as [[x|]|] eqn:E; try done. cbn in Hs. injection Hs as <-. intros j s Hj. change (shard_at y j = Some s) in Hj.
    destruct (Hb _ _ Hj) as (h & Hr & HS & Hu).
    assert (idle x = true) as Hx.
    { unfold first_pc in E. destruct c as [m|k to|k]; [destruct (sync_cmd m); [destruct (key_of m)|done]|..]; simpl in E;
        try (destruct (shard_for _ _); [|done]); simpl in E; injection E as <-; try done. by destruct m. }
    exists h. split_and!; [|done|].
    + simpl. by apply run_other.
    + rewrite Hu. unfold pcs, under_way. simpl. rewrite map_app, omap_app. simpl. rewrite (quiet_key j s x) by (by destruct x). by rewrite app_nil_r.
  - unfold go in Hs. destruct (y_agents y !! a) as [ag|] eqn:Ha; [|done]. destruct (wants a (a_pc ag)) as [h|] eqn:Hw.
    + destruct (free y h) eqn:Hf; [|done]. injection Hs as <-. eapply Hgo; [done|..]; destruct (a_pc ag) eqn:Hpc; try done.
      * by destruct js.
      * by destruct ws as [|[? []] ?].
    + destruct (act_follows _ _ _ _ _ HC HP Hlog Ha Hw Hs) as (x' & es & us & M & Hp). by eapply followed_moved.
  - destruct (y_agents y !! a) as [ag|] eqn:Ha; [|done]. simpl in Hs. destruct (a_pc ag) eqn:Hpc; try done. injection Hs as <-. eapply Hgo; by rewrite ?Hpc.
  - injection Hs as <-. done.
  - destruct (y_agents y !! a) as [ag|] eqn:Ha; [|done]. simpl in Hs. destruct (a_pc ag) eqn:Hpc; try done; injection Hs as <-; eapply Hgo; by rewrite ?Hpc.
  - destruct (y_agents y !! a) as [ag|] eqn:Ha; [|done]. simpl in Hs. destruct (a_pc ag) eqn:Hpc; try done; injection Hs as <-; [|eapply Hgo; by rewrite ?Hpc].
    eapply followed_moved; [apply moved_finish|done|by eapply follows_same; rewrite ?Hpc|done].
  - destruct (y_agents y !! a) as [ag|] eqn:Ha; [|done]. simpl in Hs. destruct (a_pc ag) eqn:Hpc; try done; injection Hs as <-; eapply Hgo; by rewrite ?Hpc.
  - destruct (y_agents y !! a) as [ag|] eqn:Ha; [|done]. simpl in Hs. destruct (a_pc ag) eqn:Hpc; try done; injection Hs as <-; eapply Hgo; by rewrite ?Hpc.
Qed.
Lemma followed_all dbg ls y : execution dbg budget ghosts cap e ls y → followed y.
Proof.
  intros H. pose proof (ginv LW PI _ _ _ H) as _. unfold execution in H. remember (sys_new budget ghosts cap e) as y0. induction H as [|y0 ls y1 lb y2 H IH Hs].
  - subst. intros j s Hj. unfold shard_at in Hj. simpl in Hj. apply lookup_replicate in Hj as [-> _].
    exists h_empty. split_and!; [constructor| |done]. split; [apply rel_new| |done].
    apply same_pend_sym, pend_nil; [apply sh_new_inv|done].
  - subst y0. destruct (ginv LW PI _ _ _ H) as [HR HG]. eapply cstep_followed; [apply HR|by eapply put_all|apply HG|done|by apply IH].
Qed.
End step.
End polconc.
