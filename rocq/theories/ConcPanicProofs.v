(* Panics in user code in concurrent use: proofs. *)
From stdpp Require Import prelude list functions.
From Verif Require Import ConcPanicSpec SyncCrashCalls CrashWit.
From Verif Require Import ConcWild ConcEnd ConcTime.

(* ---- what is known of the past after panics: nothing; D says who ended in one ---- *)
Definition lost (P : Params) (D : nat → Prop) : Ledger P.
Proof. refine {| lg_ok _ _ _ _ _ := True; lg_dead := D |}. done. Defined.
(* what is known of the next step *)
Section one.
Context {P : Params}.
Implicit Types (y : sys P) (j : nat) (d : sst P) (h : list (sop P * sres P)).
Definition next_ok y (cap budget : N) j h d : Prop :=
  ∀ s, shard_at y j = Some s → let h0 := sections j (y_log y) in
    (h = h0 ∧ same_st (abs s) d) ∨ (∃ o r, h = h0 ++ [(o, r)] ∧ sdoes cap budget (abs s) o r d) ∨ length h0 + 2 ≤ length h.
Lemma next_ok_step y cap budget j h d o r d' : next_ok y cap budget j h d → sdoes cap budget d o r d' → next_ok y cap budget j (h ++ [(o, r)]) d'.
Proof.
  intros H Hd s Hs. right. destruct (H s Hs) as [[-> Hsm]|[(o' & r' & -> & _)|Hl]].
  - left. exists o, r. split; [done|]. by eapply sdoes_same.
  - right. rewrite !app_length. simpl. lia.
  - right. rewrite !app_length. simpl. lia.
Qed.
Definition watching y (D : nat → Prop) : Ledger P := {| lg_ok := next_ok y; lg_next := next_ok_step y; lg_dead := D |}.
End one.

Section concpanicproofs.
Context {P : Params} (LW : Lawful P) (PI : ptr_ids P = true).
Context {budget ghosts cap e : N}.
Notation K := (K P). Notation V := (V P). Notation RS := (RS P).
Notation shard := (shard P). Notation sys := (sys P). Notation pc := (pc P). Notation agent := (agent P).
Notation CInv D := (@CInv P (lost P D) budget ghosts cap e).
Notation pending := ConcPanicSpec.pending.
Notation gone := ConcPanic.gone.
Notation Reach D := (@ConcNote.Reach P (lost P D) budget ghosts cap e).
Implicit Types (s : shard) (k : K) (v : V) (rs : RS) (p : plh) (a b : nat) (l : loc) (j : nat) (y : sys) (x : pc) (ag : agent).

Lemma cinv_to {LG LG' : Ledger P} y : @ConcInv.CInv P LG budget ghosts cap e y →
  (∀ j s, shard_at y j = Some s → ∃ d, @lg_ok P LG' cap budget j (sections j (y_log y)) d ∧ same_st d (abs s)) →
  @ConcInv.CInv P LG' budget ghosts cap e y.
Proof. intros [A B C D E F G] H. by split. Qed.
Lemma cinv_lost D D' y : CInv D y → CInv D' y.
Proof. intros H. apply (cinv_to (LG:=lost P D) (LG':=lost P D') y H). intros j s Hs. by exists (abs s). Qed.

(* ---- the pending loads of a shard ---- *)
Lemma pending_of s id k : Inv s → pend_of s id = Some k ↔ pending s id k.
Proof.
  intros HI. rewrite (pend_Some s id k HI). unfold pending. split.
  - intros (t & q & H & H1 & H2). exists t, q. apply ph_at_Some in H as [H Hb]. symmetry in Hb. apply bool_decide_eq_true in Hb.
    split_and!; try done. by apply entry_at_ok.
  - intros (t & q & H & Hm & H1 & H2). exists t, q. split; [|done]. apply ph_at_Some. split; [by apply entry_at_inv|]. symmetry. by apply bool_decide_eq_true.
Qed.
Lemma shows_abs s : Inv s → shows s (abs s).
Proof. intros HI. split_and!; [done| |done]. intros id k. by apply pending_of. Qed.

(* ---- the critical section in which the panic was ---- *)
Lemma fill_pts s p rs ref v : owned s p = None → (c_replace_placeholder s (Lcs rs []) p ref v).1 = [].
Proof.
  unfold owned, c_replace_placeholder, ph_at. destruct (slab_get (sh_ents s) (ph_idx p)) as [[[r|q|h] n]|] eqn:E; try done.
  rewrite (get_its _ _ _ _ E). by destruct (same_as (p_shared q) p).
Qed.
Lemma sect_hits s z q s' : Inv s → sync_sect z → (∀ p, handle_of z = Some p → hgood s p) →
  (q, s') ∈ sect_points s z → harmless q = true →
  Inv s' ∧ cfg s' = cfg s ∧ nonew s s' ∧ panic_hits (SP q) z s s' ∧
  (∀ rs p ref v wl, z = XFill rs p ref v wl → pend_of s' (ph_id p) = None).
Proof.
  intros HI Hz Hg Hin Hh.
  assert (Inv s' → nonew s s' → ∀ id k, pending s' id k → pending s id k) as Hpd.
  { intros HI' Hn id k. rewrite <-!pending_of by done. by apply nonew_sub. }
  destruct z as [m|k|rs p ref v wl|p]; simpl in Hin; [| | |by apply elem_of_nil in Hin].
  - destruct (tr_inner LW s m HI Hz q s' Hin Hh) as [(HI' & Hc & Hi) Hn]. split_and!; try done. split; [|by apply Hpd].
    simpl. destruct (CrashSpec.calm q); [by left|]. destruct (written m) as [[k v]|] eqn:Ew; [|by left]. right. split; [done|]. by exists k, v.
  - destruct (tr_upsert LW s k HI q s' Hin Hh) as (HI' & Hc & Hi). pose proof (tr_upsert_new LW s k HI q s' Hin Hh) as Hn.
    split_and!; try done. split; [by left|by apply Hpd].
  - specialize (Hg p eq_refl). destruct (owned s p) as [kp|] eqn:Ho; [|rewrite (fill_pts _ _ _ _ _ Ho) in Hin; by apply elem_of_nil in Hin].
    pose proof (hgood_owned PI s p HI Hg) as Hop. rewrite Ho in Hop. symmetry in Hop.
    assert (find_key kp (sh_iter s) = None) as Hf.
    { unfold owned in Ho. destruct (ph_at s (ph_idx p)) as [[q0 b0]|] eqn:Hq; [|done]. destruct (same_as (p_shared q0) p) eqn:Hs; [|done].
      injection Ho as <-. destruct (hgood_good PI s p Hg _ _ Hq Hs) as [-> _]. apply ph_at_Some in Hq as [Hq Hb]. symmetry in Hb. apply bool_decide_eq_true in Hb.
      eapply (absent_reskey LW s _ (ph_idx p)); try done. intros k' [= <-]. apply (keqb_refl _ LW). }
    destruct (tr_place LW s p kp rs ref v HI (hgood_good PI s p Hg) Ho Hf q s' Hin Hh) as ((HI' & Hc & Hi) & Hn & Hph).
    split_and!; try done.
    + split; [|by apply Hpd]. simpl. destruct (CrashSpec.calm q); [by left|]. right. split; [done|]. exists kp, v. split; [|done]. split; [|done]. by apply pending_of.
    + intros rs0 p0 ref0 v0 wl0 [= <- <- <- <- <-]. destruct (pend_of s' (ph_id p)) as [k'|] eqn:E; [|done]. exfalso.
      apply (pend_Some s' _ _ HI') in E as (t & q0 & H1 & H2 & _). apply (nonew_true _ _ _ _ Hn) in H1 as H3.
      destruct (Hg _ _ _ H3 H2) as [Hp _]. destruct (ph_id_lt _ _ _ _ HI H3) as [_ Ht]. rewrite Hp in Ht. subst t. congruence.
Qed.

(* ---- a panic in a critical section ---- *)
Lemma run_held a x j z : running x = Some (j, z) → ∃ m, (LShard j, m) ∈ holds a x ∧
  (m = MW ∨ ∃ mc, z = XCmd mc ∧ reads mc = true).
Proof.
  destruct x; simpl; try done; intros [= <- <-]; eexists; (split; [left; reflexivity|]); try by left.
  - destruct (reads m) eqn:E; [right; eauto|by left].
  - right. eauto.
Qed.
Lemma run_sect y x j z : pc_ok y x → running x = Some (j, z) → sync_sect z ∧ j ∈ pc_shards x ∧
  (∀ s p, shard_at y j = Some s → handle_of z = Some p → hgood s p) ∧
  (∀ i p r, part_of x = Some (i, p, r) → i = j ∧ ∃ rs v wl ref, z = XFill rs p ref v wl ∧ r = QFill v).
Proof.
  intros [_ Hsh Hg _]. destruct x; simpl; try done; intros [= <- <-]; simpl in *; split_and!; try done; try by left; try (by intros ??? [=]).
  - by destruct Hsh.
  - by destruct Hsh.
  - intros s p0 Hs [= <-]. by eapply Hg.
  - intros i p0 r [= <- <- <-]. split; [done|]. by eexists _, _, _, _.
Qed.
Definition lost_view (v : lv P) : lv P :=
  LV (v_role v) (v_flag v) Terminated [] (v_map v) true (v_ent v) (v_dis v) (v_put v).
Lemma m_void (v : lv P) : LInv v → v_on v = false → LInv (lost_view v).
Proof.
  intros HL Hoff. destruct HL. destruct (l_off Hoff) as (A & B & C & D).
  assert (∀ b, ¬ v_ent v b) as He by (intros b Hb; apply l_started in Hb; congruence).
  assert (∀ u, ¬ v_put v u) as Hp by (intros u Hu; apply l_put in Hu; congruence).
  split; simpl; try done; unfold Proto.tail, owns, keeps, guardish, pend in *; simpl in *; try (intros; repeat rewrite D in *; done).
  all: try (intros; apply NoDup_nil_2). all: try (intros b; rewrite D; apply NoDup_nil_2).
  all: try (by intros ? ?%elem_of_nil). all: try (intros b w; rewrite D; by intros ?%elem_of_nil).
  - intros b Hb. by destruct (He b).
  - intros u Hu. by destruct (Hp u).
Qed.
Lemma cinv_torn D D' y a ag j z s q s' : CInv D y → y_agents y !! a = Some ag → running (a_pc ag) = Some (j, z) →
  shard_at y j = Some s → (q, s') ∈ sect_points s z → harmless q = true →
  CInv D' (torn y a j s s') ∧ panic_hits (SP q) z s s'.
Proof.
  intros HC Ha Hr Hs Hin Hh. destruct (ci_inv _ _ _ _ _ HC _ _ Hs) as [HI Hcfg].
  destruct (run_sect y _ _ _ (ci_pc _ _ _ _ _ HC _ _ Ha) Hr) as (Hz & Hjs & Hhd & Hpart).
  destruct (sect_hits s z q s' HI Hz (λ p, Hhd s p Hs) Hin Hh) as (HI' & Hc' & Hn & Hph & Hfill).
  split; [|done]. apply (cinv_lost D). clear D'.
  destruct (run_held a _ _ _ Hr) as (m & Hm & Hmr).
  assert (m = MW ∨ its_of s' = its_of s) as Hmr'.
  { destruct Hmr as [?|(mc & -> & Hrd)]; [by left|right]. simpl in Hin. by rewrite (reads_pts s mc q s' Hrd Hin). }
  set (y' := torn y a j s s').
  assert (only_pc y y' a (ADone RetCancel)) as Ho by (by eapply only_goto).
  assert (y_cache y' = with_shard (y_cache y) j s') as Hca by done.
  pose proof (λ i, shard_put y y' j s s' i Hs Hca) as Hput.
  assert (∀ l, y_ph y' l = if decide (l.1 = j ∧ (sh_nph s ≤ l.2)%N ∧ (l.2 < sh_nph s')%N) then PSt [] Terminated else y_ph y l) as Hyp by done.
  assert (y_log y' = y_log y ++ []) as Hlog by (by rewrite app_nil_r).
  assert (∀ b, flag y' b = flag y b) as Hf by (intros b; by eapply flag_via).
  assert (∀ l, role y l a ≠ QPush) as Hnp.
  { eapply not_push; [done|]. intros i p r Hp. destruct (Hpart _ _ _ Hp) as (_ & rs & v & wl & ref & _ & ->). done. }
  eapply (cinv_put budget ghosts cap e y y' a ag (ADone RetCancel) j s s'); try done.
  - intros i s0 _. by exists (abs s0).
  - by intros h ?%elem_of_nil.
  - by intros h ?%elem_of_nil.
  - intros b bg p r Hne Hb Hp Hg t q0 bo Ht Hid. destruct Hn as [_ Hn]. destruct (Hn _ _ _ Ht) as [H|[_ Hge]]; [by eapply Hg|].
    pose proof (part_id y b bg j p r s HC Hb Hp (part_some _ _ _ _ Hp) Hs). rewrite Hid in Hge. lia.
  - intros b bg i v c r Hne Hb Hp Hi. destruct Hmr' as [->|Heq]; [|rewrite Heq; eauto].
    by destruct (no_bump _ _ _ _ b bg i v c HC Ha Hm Hne Hb).
  - intros l. assert (∀ b, role y' l b = if decide (b = a) then QNone else role y l b) as Hro.
    { intros b. by rewrite (role_only _ _ _ _ _ _ Ho). }
    pose proof (ci_load _ _ _ _ _ HC l) as HL.
    destruct (decide (l.1 = j)) as [<-|Hlj].
    + destruct l as [j id]. cbn [fst snd] in *. assert (∀ b, b ≠ a → role y (j, id) b ≠ QPush) as Hnp' by (intros b Hb; exact (no_push _ _ _ _ _ id HC Ha Hm b Hb)).
      assert (is_Some (pend_of s' id) → is_Some (pend_of s id)) as Hsub. { intros [k Hk]. exists k. by eapply nonew_sub. }
      destruct (decide (sh_nph s ≤ id)%N) as [Hge|Hlt].
      * assert (v_on (lview y (j, id)) = false) as Hoff. { simpl. apply bool_decide_eq_false. unfold next_id; simpl. rewrite Hs. lia. }
        destruct (l_off _ HL Hoff) as (_ & _ & Hmap & Hrn). simpl in Hmap, Hrn.
        assert (∀ b, role y' (j, id) b = role y (j, id) b) as Hro'. { intros b. rewrite Hro, Hrn. by case_decide. }
        assert (is_Some (pend_at y' (j, id)) ↔ is_Some (pend_at y (j, id))) as Hpd.
        { unfold pend_at in *; simpl in *. rewrite Hput, decide_True, Hs by done. rewrite Hs in Hmap. split; [done|]. intros H. by destruct Hmap. }
        destruct (decide (id < sh_nph s')%N) as [Hlt'|Hge'].
        -- eapply linv_ext; [apply (m_void _ HL Hoff)|..]; simpl; try done.
           ++ unfold at_load. by rewrite Hyp, decide_True.
           ++ unfold waiting_on. by rewrite Hyp, decide_True.
           ++ unfold next_id; simpl. rewrite Hput, decide_True by done. apply bool_decide_eq_true. lia.
        -- eapply linv_frame; try done.
           ++ rewrite Hyp, decide_False; [done|]. simpl. lia.
           ++ unfold next_id; simpl. rewrite Hput, decide_True, Hs by done. apply bool_decide_ext. lia.
      * assert (LInv (cut y (j, id) s')) as HLc.
        { apply (m_unmap (lview y (j, id)) (is_Some (pend_of s' id))); [done|simpl|simpl].
          - unfold pend_at; simpl. by rewrite Hs.
          - intros b Hb. destruct (decide (b = a)) as [->|Hne]; [by destruct (Hnp (j, id))|by destruct (Hnp' b Hne)]. }
        assert (LInv (setr (cut y (j, id) s') a QNone)) as HLs.
        { destruct (part_of (a_pc ag)) as [[[i p] r]|] eqn:Hp.
          - destruct (Hpart _ _ _ eq_refl) as (-> & rs & v & wl & ref & -> & ->). specialize (Hfill _ _ _ _ _ eq_refl).
            destruct (decide (pl j p = (j, id))) as [Heq|Hneq].
            + eapply (m_fill _ a v HLc); simpl.
              * rewrite (role_at _ _ _ _ Ha), <-Heq. by eapply role_own.
              * unfold pl in Heq. injection Heq as <-. rewrite Hfill. by intros [? ?].
            + eapply linv_ext; [exact HLc|..]; simpl; try done. intros b. rewrite fn_ins. case_decide; [|done]. subst b.
              rewrite (role_at _ _ _ _ Ha). symmetry. by eapply role_other.
          - eapply linv_ext; [exact HLc|..]; simpl; try done. intros b. rewrite fn_ins. case_decide; [|done]. subst b.
            by rewrite (role_at _ _ _ _ Ha), role_none. }
        eapply linv_ext; [exact HLs|..]; simpl; try done.
        -- intros b. rewrite Hro, fn_ins. done.
        -- unfold at_load. rewrite Hyp, decide_False; [done|]. simpl. lia.
        -- unfold waiting_on. rewrite Hyp, decide_False; [done|]. simpl. lia.
        -- unfold pend_at; simpl. by rewrite Hput, decide_True.
        -- unfold next_id; simpl. rewrite Hput, decide_True, Hs by done. destruct Hn as [Hn _]. apply bool_decide_ext. lia.
    + eapply linv_frame; try done.
      * intros b. rewrite Hro. case_decide; [|done]. subst b. rewrite (role_at _ _ _ _ Ha). symmetry.
        destruct (part_of (a_pc ag)) as [[[i p] r]|] eqn:Hp; [|by apply role_none].
        destruct (Hpart _ _ _ eq_refl) as (-> & _). eapply role_other; [done|]. intros ->. done.
      * rewrite Hyp, decide_False by tauto. done.
      * unfold pend_at. by rewrite Hput, decide_False.
      * unfold next_id. by rewrite Hput, decide_False.
Qed.

(* ---- histories, notifications and time do not see the panic ---- *)
Lemma hinv_gone D y a ag : @HInv P (lost P D) y → y_agents y !! a = Some ag →
  @HInv P (lost P (λ b, b = a ∨ D b)) (goto y a (ADone RetCancel)).
Proof.
  intros [H1 H2 H3] Ha. split.
  - intros b bg Hb Hd. rewrite lookup_goto in Hb. simpl in Hd. destruct (decide (b = a)) as [->|Hne]; [tauto|].
    destruct (y_agents y !! b) as [bg0|] eqn:E; [|done]. injection Hb as <-. apply (H1 b bg0 E). simpl. tauto.
  - intros b Hd. rewrite lookup_goto. destruct (decide (b = a)) as [->|Hne].
    + rewrite Ha. by eexists.
    + destruct Hd as [|Hd]; [done|]. destruct (H2 b Hd) as (bg & -> & Hp). by exists bg.
  - intros b ev Hin. unfold goto, with_agent; simpl. rewrite alter_length. by eapply H3.
Qed.
Lemma hinv_like D y y' : @HInv P (lost P D) y → y_agents y' = y_agents y → y_log y' = y_log y →
  sc_mask (y_cache y') = sc_mask (y_cache y) → length (sc_shards (y_cache y')) = length (sc_shards (y_cache y)) → @HInv P (lost P D) y'.
Proof. intros [H1 H2 H3] Ea El Em En. split; rewrite ?Ea, ?El, ?Em, ?En; done. Qed.
Lemma ninv_goto y a ag x' : NInv y → y_agents y !! a = Some ag →
  (∀ j p b ws nm, a_pc ag ≠ NUnpark j p b ws nm) → (∀ l w, role_pc l (a_pc ag) ≠ QHand w) →
  (∀ w nt, npc (a_pc ag) (a_flag ag) w nt → npc x' (a_flag ag) w nt) → tpc x' (a_flag ag) (a_token ag) False → wpc x' (a_flag ag) (a_waker ag) (a_woken ag) →
  NInv (goto y a x').
Proof.
  intros [A B C D E] Ha Hu Hh Hn Ht Hw.
  assert (∀ b bg', y_agents (goto y a x') !! b = Some bg' → (b = a ∧ bg' = set_apc x' ag) ∨ (b ≠ a ∧ y_agents y !! b = Some bg')) as Hc.
  { intros b bg'. rewrite lookup_goto. case_decide; [subst b; rewrite Ha; intros [= <-]; by left|]. destruct (y_agents y !! b); [|done]. intros [= <-]. by right. }
  assert (∀ b, unparks y b → unparks (goto y a x') b) as Hun.
  { intros b (c & cg & j & p & ws & nm & Hcc & Hpc). exists c, cg, j, p, ws, nm. split; [|done]. rewrite lookup_goto, decide_False; [by rewrite Hcc|].
    intros ->. rewrite Ha in Hcc. injection Hcc as <-. by eapply Hu. }
  split.
  - intros b bg' Hb. destruct (Hc b bg' Hb) as [[-> ->]|[_ Hb0]]; simpl; [by apply Hn, A|by apply A].
  - intros c l b Hin. destruct (B c l b Hin) as [?|[t Hr]]; [by left|right]. exists t. rewrite (role_goto y a ag) by done.
    case_decide; [|done]. subst c. rewrite (role_at _ _ _ _ Ha) in Hr. by destruct (Hh l (b, t)).
  - intros b bg' Hb. destruct (Hc b bg' Hb) as [[-> ->]|[_ Hb0]]; simpl.
    + unfold tpc in *. destruct x'; try done; intros Hfl; left; by destruct (Ht Hfl).
    + pose proof (C b bg' Hb0) as H. unfold tpc in *. destruct (a_pc bg'); try done; intros Hfl; (destruct (H Hfl) as [?|Hu']; [by left|right; by apply Hun]).
  - intros b Hb. unfold goto, with_agent; simpl. rewrite alter_length. by apply D.
  - intros b bg' Hb. destruct (Hc b bg' Hb) as [[-> ->]|[_ Hb0]]; simpl; [done|by apply (E b bg')].
Qed.
Lemma ninv_like y y' : NInv y → y_agents y' = y_agents y → y_log y' = y_log y → NInv y'.
Proof.
  intros [A B C D E] Ea El. split; rewrite ?Ea, ?El; try done.
  - intros a l b Hin. destruct (B a l b Hin) as [?|[t Hr]]; [by left|right]. exists t. unfold role in *. by rewrite Ea.
  - intros a ag Ha. pose proof (C a ag Ha) as H. unfold tpc, unparks in *. rewrite Ea. done.
Qed.
Lemma tinv_goto y a ag x' : TInv y → y_agents y !! a = Some ag → tmpc (y_now y) (a_born ag) (a_call ag) x' → TInv (goto y a x').
Proof. intros H Ha. eapply tinv_moved; [done|done|apply moved_goto]. Qed.
Lemma tinv_like y y' : TInv y → y_agents y' = y_agents y → y_now y' = y_now y → TInv y'.
Proof. intros [A B] Ea En. split; rewrite Ea, En; done. Qed.

(* ---- every execution with panics keeps the invariants ---- *)
(* the program counters at which user code can panic *)
Definition tender x : bool :=
  match x with PWant _ _ | GWant _ _ _ | IIn _ _ _ _ _ => true | _ => bool_decide (is_Some (running x)) end.
Lemma tender_note x w nt f : tender x = true → npc x f w nt → npc (P:=P) (ADone RetCancel) f w nt.
Proof. intros _ H. by eapply npc_done. Qed.
Lemma quiet_tender x : tender x = true → (∀ r, x ≠ ADone r) ∧ (∀ j p b ws nm, x ≠ NUnpark j p b ws nm) ∧ (∀ l w, role_pc l x ≠ QHand w).
Proof.
  intros Ht. split_and!.
  - by intros r ->.
  - by intros j p b ws nm ->.
  - intros l w. unfold role_pc. destruct x; try done; simpl; by case_decide.
Qed.
Lemma reach_gone D y y' a ag : Reach D y → y_agents y !! a = Some ag → tender (a_pc ag) = true →
  CInv (λ b, b = a ∨ D b) y' → y_agents y' = y_agents (gone y a) → y_log y' = y_log y → y_now y' = y_now y →
  sc_mask (y_cache y') = sc_mask (y_cache y) → length (sc_shards (y_cache y')) = length (sc_shards (y_cache y)) → Reach (λ b, b = a ∨ D b) y'.
Proof.
  intros [HC HH HN HT] Ha Ht HC' Ea El En Em Ei. destruct (quiet_tender _ Ht) as (Q1 & Q2 & Q3). split; [done|..].
  - eapply hinv_like; [by eapply hinv_gone|done..].
  - eapply (ninv_like (gone y a)); [|done..]. eapply ninv_goto; try done. intros w nt. by apply tender_note.
  - eapply (tinv_like (gone y a)); [|done..]. by eapply tinv_goto.
Qed.
(* where unwinding leaves the agent *)
Definition unwound x : pc := match x with IIn j p _ _ _ => DWant j p | _ => ADone RetCancel end.
(* what a panic does, as far as the agents, the log and the other shards see it *)
Record panicked y a (q : spoint) y' : Prop := {
  pk_ag : ∃ ag, y_agents y !! a = Some ag ∧ tender (a_pc ag) = true ∧
    y_agents y' = alter (set_apc (unwound (a_pc ag))) a (y_agents y) ∧
    ((running (a_pc ag) = None ∧ y_cache y' = y_cache y ∧ y_ph y' = y_ph y) ∨
     ∃ j z s s' q', running (a_pc ag) = Some (j, z) ∧ shard_at y j = Some s ∧ (q', s') ∈ sect_points s z ∧ q = SP q' ∧ y' = torn y a j s s');
  pk_log : y_log y' = y_log y;
  pk_now : y_now y' = y_now y;
}.
Lemma booms_case y a q y' : (q, y') ∈ booms y a → panicked y a q y'.
Proof.
  unfold booms. destruct (y_agents y !! a) as [ag|] eqn:Ha; [|by intros ?%elem_of_nil].
  assert (∀ j z, running (a_pc ag) = Some (j, z) → tender (a_pc ag) = true →
    (unwound (a_pc ag)) = ADone RetCancel →
    (q, y') ∈ match sc_shards (y_cache y) !! j with None => [] | Some s => (λ '(q, s'), (SP q, torn y a j s s')) <$> sect_points s z end → panicked y a q y') as Hrun.
  { intros j z Hr Ht Hd. destruct (sc_shards (y_cache y) !! j) as [s|] eqn:Hs; [|by intros ?%elem_of_nil].
    intros ([q' s'] & [= -> ->] & Hin)%elem_of_list_fmap. split; [|done|done]. exists ag. split_and!; try done; [by rewrite Hd|]. right. by exists j, z, s, s', q'. }
  destruct (a_pc ag) eqn:Hp; try (by intros ?%elem_of_nil); try (by apply Hrun).
  - intros [[= -> ->]|Hin]%elem_of_cons.
    + split; [|done|done]. exists ag. rewrite Hp. split_and!; [done..|by left].
    + destruct (opens m); [|by apply elem_of_nil in Hin]. apply elem_of_list_singleton in Hin. injection Hin as -> ->.
      split; [|done|done]. exists ag. rewrite Hp. split_and!; [done..|by left].
  - intros [= -> ->]%elem_of_list_singleton. split; [|done|done]. exists ag. rewrite Hp. split_and!; [done..|by left].
  - intros [= -> ->]%elem_of_list_singleton. split; [|done|done]. exists ag. rewrite Hp. split_and!; [done..|by left].
Qed.
Lemma reach_booms D y a q y' : Reach D y → (q, y') ∈ booms y a → harmless_at q = true →
  ∃ D', Reach D' y' ∧ ∀ b, D' b → D b ∨ b = a.
Proof.
  intros HR Hin Hq. pose proof HR as [HC HH HN HT]. destruct (booms_case _ _ _ _ Hin) as [(ag & Ha & Ht & Eag & Hcase) El En].
  destruct (quiet_tender _ Ht) as (Q1 & Q2 & Q3).
  destruct Hcase as [(Hr0 & Ec & Ep)|(j & z & s & s' & q' & Hr & Hs & Hp & -> & ->)].
  - assert (y' = goto y a (unwound (a_pc ag))) as ->.
    { destruct y, y'; simpl in *. by subst. }
    destruct (a_pc ag) eqn:Hpc; try done; try (exists (λ b, b = a ∨ D b); split; [|tauto]; eapply reach_gone; try done; [by rewrite Hpc|]; apply (cinv_lost D); apply (step_goto y a ag); try done; rewrite ?Hpc; try done; by intros ? ?%elem_of_nil).
    exists D. split; [|tauto]. simpl. split.
    + apply (step_goto y a ag); rewrite ?Hpc; try done; by intros ? ?%elem_of_nil.
    + eapply (hinv_moved (LG:=lost P D) y _ a ag _ [] []); try done; [by rewrite Hpc|apply moved_goto|].
      pose proof (hi_active (LG:=lost P D) y a ag HH Ha) as Hh. rewrite Hpc in Hh. destruct (Hh Q1) as (k & E1 & E2 & E3).
      exists k. rewrite app_nil_r. split_and!; try done. by left.
    + eapply ninv_goto; rewrite ?Hpc; try done. intros w nt Hn. eapply npc_go; [exact Hn|done|done|by left].
    + by eapply tinv_goto.
  - exists (λ b, b = a ∨ D b). split; [|tauto]. eapply reach_gone; try done.
    + eapply cinv_torn; done.
    + simpl. by rewrite insert_length.
Qed.
Lemma reach_lost y : @ConcNote.Reach P (full P) budget ghosts cap e y → Reach (λ _, False) y.
Proof.
  intros [HC HH HN HT]. split; [|destruct HH; by split|done|done].
  apply (cinv_to (LG:=full P) (LG':=lost P (λ _, False)) y HC). intros j s Hs. by exists (abs s).
Qed.
Lemma step_silent dbg y lb y' b bg r : stepped dbg y y' lb → y_agents y !! b = Some bg → a_pc bg = ADone r →
  returned (y_log y') b → returned (y_log y) b.
Proof.
  intros Hst Hb Epc [r0 Hin]. destruct Hst as [a ag x' es us Ha M Hm|lb a ag x' es Ha M Hm|c x Hf ->|d ->].
  - rewrite (md_log _ _ _ _ _ _ Hm) in Hin. apply elem_of_app in Hin as [?|Hin]; [by exists r0|]. apply elem_of_list_fmap in Hin as (ev & [= -> <-] & Hev).
    rewrite Hb in Ha. injection Ha as <-. rewrite Epc in M. by inversion M.
  - rewrite (md_log _ _ _ _ _ _ Hm) in Hin. apply elem_of_app in Hin as [?|Hin]; [by exists r0|]. apply elem_of_list_fmap in Hin as (ev & [= -> <-] & Hev).
    rewrite Hb in Ha. injection Ha as <-. rewrite Epc in M. by inversion M.
  - simpl in Hin. apply elem_of_app in Hin as [?|Hin]; [by exists r0|]. by apply elem_of_list_singleton in Hin.
  - by exists r0.
Qed.
Lemma eventful_dead dbg hs y : eventful dbg (sys_new budget ghosts cap e) hs y →
  ∃ D, Reach D y ∧ ∀ b, D b → ¬ returned (y_log y) b ∧ ∃ q, Panics b q ∈ hs.
Proof.
  intros H. remember (sys_new budget ghosts cap e) as y0 eqn:E. induction H as [y0|y0 hs y1 lb y2 H IH Hs|y0 hs y1 a q y2 H IH Hin Hq]; subst.
  - exists (λ _, False). split; [apply reach_lost, reach_new|done].
  - destruct (IH eq_refl) as (D & HR & HD). exists D. split; [by eapply (reach_step LW PI)|]. intros b Hb. destruct (HD b Hb) as [H1 [q H2]].
    split; [|exists q; apply elem_of_app; by left]. intros Hr. apply H1. destruct (hi_dead (LG:=lost P D) y1 (rc_h _ HR) b Hb) as (bg & Hbg & Epc).
    by eapply step_silent; [by eapply (cstep_stepped (LG:=lost P D) LW PI); [apply (rc_c _ HR)|]|..].
  - destruct (IH eq_refl) as (D & HR & HD). destruct (reach_booms _ _ _ _ _ HR Hin Hq) as (D' & HR' & HD'). exists D'. split; [done|].
    destruct (booms_case _ _ _ _ Hin) as [(ag & Ha & Ht & _) El _]. intros b Hb. rewrite El. destruct (HD' b Hb) as [Hb'| ->].
    + destruct (HD b Hb') as [H1 [q' H2]]. split; [done|]. exists q'. apply elem_of_app; by left.
    + split; [|exists q; apply elem_of_app; right; by left]. intros [r Hr]. apply hist_in in Hr; [|done].
      pose proof (hi_active (LG:=lost P D) y1 a ag (rc_h _ HR) Ha (proj1 (quiet_tender _ Ht))) as Hh.
      assert (is_done (a_pc ag) = false) as Hd by (clear -Ht; by destruct (a_pc ag)). by apply (undone_hist _ _ _ _ _ r Hh Hd).
Qed.
Lemma eventful_reach dbg hs y : eventful dbg (sys_new budget ghosts cap e) hs y → ∃ D, Reach D y.
Proof. intros H. destruct (eventful_dead _ _ _ H) as (D & HR & _). by exists D. Qed.
Lemma eventful_life dbg hs y a r : eventful dbg (sys_new budget ghosts cap e) hs y → (a, EvRet r) ∈ y_log y →
  ∃ ag h, y_agents y !! a = Some ag ∧ hist (y_log y) a = h ++ [EvRet r] ∧ life (2 ^ e - 1)%N (N.to_nat (2 ^ e)) (a_call ag) h r.
Proof.
  intros H Hr. destruct (eventful_dead _ _ _ H) as (D & HR & HD). assert (¬ D a) as Hn by (intros Hd; apply (HD a Hd); by exists r).
  pose proof (hi_log (LG:=lost P D) y (rc_h _ HR) _ _ Hr) as Hlt. apply lookup_lt_is_Some in Hlt as [ag Ha].
  pose proof (hi_alive (LG:=lost P D) y (rc_h _ HR) a ag Ha Hn) as Hh. assert (EvRet r ∈ hist (y_log y) a) as Hin by (by apply hist_in).
  destruct (is_done (a_pc ag)) eqn:Ed; [|by destruct (undone_hist _ _ _ _ _ r Hh Ed)]. destruct (a_pc ag) eqn:Epc; try done.
  destruct Hh as (h & HL & Eh). exists ag, h. split; [done|].
  rewrite Eh in Hin. apply elem_of_app in Hin as [Hin|Hin]; [by destruct (life_no_ret _ _ _ _ _ r HL)|]. apply elem_of_list_singleton in Hin. injection Hin as <-.
  split; [done|]. by rewrite (ci_len _ _ _ _ _ (rc_c _ HR)), (ci_mask _ _ _ _ _ (rc_c _ HR)) in HL.
Qed.

(* ---- the next step ---- *)
Lemma sdoes_to bu (d1 d2 d3 : sst P) (o : sop P) r : sdoes cap bu d1 o r d2 → same_st d2 d3 → sdoes cap bu d1 o r d3.
Proof.
  destruct d1 as [c p n], d2 as [c1 p1 n1], d3 as [c2 p2 n2]. intros H (A & B & C). simpl in *. subst c2 n2.
  assert (∀ q, same_pend p1 q → same_pend p2 q) as Hq by (intros q Hq i; by rewrite <-B).
  destruct o as [m|k|rs id v wl|id], r as [o|v0|id0|id0|v0|]; try done; simpl in *; naive_solver.
Qed.
Definition secs (es : list (cevent P)) : nat := length (List.filter (λ ev, match ev with EvSec _ _ _ => true | _ => false end) es).
Lemma secs_le a j (es : list (cevent P)) : length (sections j (map (pair a) es)) ≤ secs es.
Proof.
  induction es as [|ev es IH]; [done|]. unfold secs, sections in *. cbn [map concat]. rewrite app_length.
  assert (length (sec_of j (a, ev)) ≤ match ev with EvSec _ _ _ => 1 | _ => 0 end) by (unfold sec_of; simpl; destruct ev; simpl; try case_decide; simpl; lia).
  destruct ev; cbn [List.filter length] in *; lia.
Qed.
Lemma one_entry dbg y lb y' j : stepped dbg y y' lb → ∃ es, y_log y' = y_log y ++ es ∧ length (sections j es) ≤ 1.
Proof.
  assert (∀ a es, secs es ≤ 1 → length (sections j (map (pair a) es)) ≤ 1) as Hs by (intros a es H; pose proof (secs_le a j es); lia).
  destruct 1 as [a ag x' es us Ha M Hm|lb a ag x' es Ha M Hm|c x Hf ->|d ->].
  - exists (map (pair a) es). split; [apply (md_log _ _ _ _ _ _ Hm)|]. apply Hs.
    destruct M; unfold secs; simpl; try lia.
    all: try (destruct sm; simpl; lia). all: match goal with H : starts _ _ _ _ _ _ |- _ => destruct H; simpl; lia end.
  - exists (map (pair a) es). split; [apply (md_log _ _ _ _ _ _ Hm)|]. apply Hs. destruct M; unfold secs; simpl; lia.
  - exists [(length (y_agents y), EvCall c)]. split; [done|]. simpl. lia.
  - exists []. split; [by rewrite app_nil_r|]. simpl. lia.
Qed.

Lemma step_does D dbg y lb y' j s : Reach D y → cstep dbg y lb = Some (Ok y') → shard_at y j = Some s →
  ∃ s', shard_at y' j = Some s' ∧
   ((sections j (y_log y') = sections j (y_log y) ∧ same_st (abs s) (abs s')) ∨
    (∃ o r, sections j (y_log y') = sections j (y_log y) ++ [(o, r)] ∧ sdoes cap budget (abs s) o r (abs s'))).
Proof.
  intros [HC HH HN HT] Hs Hj. pose proof (cstep_stepped LW PI _ _ _ _ HC Hs) as Hst.
  destruct (one_entry dbg y lb y' j Hst) as (es & Hl & Hes).
  assert (@ConcInv.CInv P (watching y D) budget ghosts cap e y) as HC1.
  { apply (cinv_to (LG:=lost P D) (LG':=watching y D) y HC). intros i s0 Hi. exists (abs s0). split; [|done]. intros s1 Hi'. rewrite Hi in Hi'. injection Hi' as <-. by left. }
  pose proof (cstep_keeps (LG:=watching y D) LW PI _ _ _ _ HC1 Hs) as HC2. simpl in HC2.
  assert (is_Some (shard_at y' j)) as [s' Hj'].
  { apply lookup_lt_is_Some. rewrite (ci_len _ _ _ _ _ HC2), <-(ci_len _ _ _ _ _ HC1). by eapply lookup_lt_Some. }
  exists s'. split; [done|]. destruct (ci_legal _ _ _ _ _ HC2 j s' Hj') as (d & Hd & Hd'). simpl in Hd. specialize (Hd s Hj).
  destruct Hd as [[H1 H2]|[(o & r & H1 & H2)|H1]].
  - left. split; [done|]. by eapply same_st_trans.
  - right. exists o, r. split; [done|]. by eapply sdoes_to.
  - rewrite Hl, sections_app, app_length in H1. lia.
Qed.
Lemma step_section D dbg y lb y' j s : Reach D y → cstep dbg y lb = Some (Ok y') → shard_at y j = Some s →
  ∃ s', shard_at y' j = Some s' ∧ one_section cap budget j y y' s s'.
Proof.
  intros HR Hs Hj. destruct (step_does _ _ _ _ _ _ _ HR Hs Hj) as (s' & Hj' & H). exists s'. split; [done|].
  pose proof (reach_step LW PI _ _ _ _ HR Hs) as HR'.
  destruct (ci_inv _ _ _ _ _ (rc_c _ HR) j s Hj) as [HI _]. destruct (ci_inv _ _ _ _ _ (rc_c _ HR') j s' Hj') as [HI' _].
  exists (abs s), (abs s'). split_and!; [by apply shows_abs|by apply shows_abs|]. destruct H as [[H1 (A & B & C)]|H]; [left|by right].
  split_and!; [done|done|intros i; by rewrite B|done].
Qed.

(* ---- keys stay in their shards ---- *)
Definition placed y : Prop := ∀ j s, shard_at y j = Some s → keys_in (λ k, j = shard_idx (sc_mask (y_cache y)) k) (abs s).
Lemma step_fits D dbg y lb y' j o r : Reach D y → cstep dbg y lb = Some (Ok y') →
  sections j (y_log y') = sections j (y_log y) ++ [(o, r)] → in_place (λ k, j = shard_idx (sc_mask (y_cache y)) k) (o, r).
Proof.
  intros HR Hs Hsec. pose proof (cstep_stepped LW PI _ _ _ _ (rc_c _ HR) Hs) as Hst. pose proof (reach_step LW PI _ _ _ _ HR Hs) as HR'.
  assert (sc_mask (y_cache y') = sc_mask (y_cache y)) as Hmk by (by rewrite (ci_mask _ _ _ _ _ (rc_c _ HR)), (ci_mask _ _ _ _ _ (rc_c _ HR'))).
  assert (∀ a ag es, y_agents y !! a = Some ag → (∀ q, a_pc ag ≠ ADone q) → y_log y' = y_log y ++ map (pair a) es →
    in_place (λ k, j = shard_idx (sc_mask (y_cache y)) k) (o, r)) as Hmain.
  { intros a ag es Ha Hnd Hl. rewrite Hl, sections_app in Hsec. apply app_inv_head in Hsec.
    assert ((o, r) ∈ sections j (map (pair a) es)) as Hin by (rewrite Hsec; by left).
    apply in_sections in Hin as [b Hb]. pose proof Hb as Hb'. apply elem_of_list_fmap in Hb as (ev & [= -> <-] & Hev).
    assert ((a, EvSec j o r) ∈ y_log y') as Hlog by (rewrite Hl; apply elem_of_app; by right).
    pose proof (hi_log _ (rc_h _ HR') _ _ Hlog) as Hlt. apply lookup_lt_is_Some in Hlt as [ag' Ha'].
    assert (¬ D a) as Hal. { intros Hd. destruct (hi_dead _ (rc_h _ HR) _ Hd) as (ag0 & Ha0 & Hp0). rewrite Ha in Ha0. injection Ha0 as <-. by eapply Hnd. }
    pose proof (hi_alive _ (rc_h _ HR') _ _ Ha' Hal) as Hh. apply hpc_fits in Hh. rewrite Forall_forall in Hh.
    specialize (Hh (EvSec j o r) (proj1 (hist_in _ _ (EvSec j o r) eq_refl) Hlog)). rewrite Hmk in Hh. unfold in_place. simpl in *.
    destruct o as [m|k1|rs id v1 wl|id]; try done; [|by destruct Hh as [_ ->]]. destruct Hh as (_ & _ & Hh). by destruct (key_of m). }
  destruct Hst as [a ag x' es us Ha M Hm|lb a ag x' es Ha M Hm|c x Hf ->|d ->].
  - eapply (Hmain a ag es Ha); [|apply (md_log _ _ _ _ _ _ Hm)]. intros q Hq. rewrite Hq in M. clear -M. inversion M; done.
  - eapply (Hmain a ag es Ha); [|apply (md_log _ _ _ _ _ _ Hm)]. intros q Hq. rewrite Hq in M. clear -M. inversion M; done.
  - simpl in Hsec. unfold sections in Hsec. rewrite map_app, concat_app in Hsec. apply app_inv_head in Hsec. done.
  - simpl in Hsec. apply (f_equal length) in Hsec. rewrite app_length in Hsec. simpl in Hsec. lia.
Qed.
Lemma placed_step D dbg y lb y' : Reach D y → cstep dbg y lb = Some (Ok y') → placed y → placed y'.
Proof.
  intros HR Hs HP j s' Hj'. pose proof (reach_step LW PI _ _ _ _ HR Hs) as HR'.
  assert (sc_mask (y_cache y') = sc_mask (y_cache y)) as -> by (by rewrite (ci_mask _ _ _ _ _ (rc_c _ HR)), (ci_mask _ _ _ _ _ (rc_c _ HR'))).
  assert (is_Some (shard_at y j)) as [s Hj].
  { apply lookup_lt_is_Some. rewrite (ci_len _ _ _ _ _ (rc_c _ HR)), <-(ci_len _ _ _ _ _ (rc_c _ HR')). by eapply lookup_lt_Some. }
  destruct (step_does _ _ _ _ _ _ _ HR Hs Hj) as (s0 & Hj0 & H). rewrite Hj' in Hj0. injection Hj0 as <-. specialize (HP j s Hj).
  destruct H as [[_ (A & B & _)]|(o & r & H1 & H2)].
  - destruct HP as [P1 P2]. split; [by rewrite <-A|]. intros id k. rewrite <-B. apply P2.
  - eapply (sdoes_place LW); [|exact H2|by eapply step_fits|done]. intros k1 k2 Hk ->. symmetry. by apply (idx_keqb LW).
Qed.
Lemma placed_booms D y a q y' : Reach D y → (q, y') ∈ booms y a → harmless_at q = true → placed y → placed y'.
Proof.
  intros HR Hin Hq HP. destruct (booms_case _ _ _ _ Hin) as [(ag & Ha & Ht & Eag & Hcase) El En].
  destruct Hcase as [(Hr0 & Ec & Ep)|(j & z & s & s' & q' & Hr & Hs & Hp & -> & ->)].
  - intros j s Hj. rewrite Ec. apply HP. unfold shard_at in *. by rewrite <-Ec.
  - destruct (cinv_torn D D y a ag j z s q' s' (rc_c _ HR) Ha Hr Hs Hp Hq) as [HC' [Hit Hpd]].
    destruct (ci_inv _ _ _ _ _ (rc_c _ HR) j s Hs) as [HI _].
    assert (shard_at (torn y a j s s') j = Some s') as Hj'.
    { erewrite (shard_put y _ j s s' j); [by rewrite decide_True|done|done]. }
    destruct (ci_inv _ _ _ _ _ HC' j s' Hj') as [HI' _].
    intros i s0 Hi. erewrite (shard_put y _ j s s' i) in Hi by done. case_decide; [|by apply HP]. subst i. injection Hi as <-.
    destruct (HP j s Hs) as [P1 P2]. split; simpl.
    + destruct Hit as [Hit|(_ & k & v & Hof & Hpw)].
      * intros k v. rewrite Hit. apply P1.
      * assert (j = shard_idx (sc_mask (y_cache y)) k) as Hk.
        { pose proof (hi_active _ _ _ (rc_h _ HR) Ha) as Hh. specialize (Hh (proj1 (quiet_tender _ Ht))).
          destruct z as [m|k0|rs p ref v' wl|p]; simpl in Hof; try done.
          - destruct (a_pc ag) eqn:Epc; simpl in Hr; try done; simplify_eq; simpl in Hh; try done.
            + destruct Hh as (k0 & _ & Hk & -> & _). destruct m; simpl in *; try done; by simplify_eq.
            + destruct Hh as (_ & Hk & _). destruct m; simpl in *; try done; by apply elem_of_nil in Hp.
          - destruct Hof as [Hof _]. apply (P2 (ph_id p)). simpl. by apply pending_of. }
        intros k' v' Hin'. destruct (keqb P k k') eqn:Ek.
        -- rewrite Hk. by apply (idx_keqb LW).
        -- destruct (partway_other _ _ _ _ _ _ Hpw Ek Hin') as (v0 & Hv0 & _). by eapply P1.
    + intros id k Hk. apply (P2 id). simpl. apply pending_of; [done|]. apply Hpd. by apply pending_of.
Qed.
Lemma eventful_placed dbg hs y : eventful dbg (sys_new budget ghosts cap e) hs y → placed y.
Proof.
  intros H. remember (sys_new budget ghosts cap e) as y0 eqn:E. induction H as [y0|y0 hs y1 lb y2 H IH Hs|y0 hs y1 a q y2 H IH Hin Hq]; subst.
  - intros j s Hj. unfold shard_at in Hj; simpl in Hj. apply lookup_replicate in Hj as [-> _]. split; simpl; [by intros k v ?%elem_of_nil|done].
  - destruct (eventful_reach _ _ _ H) as [D HR]. eapply placed_step; [done|done|by apply IH].
  - destruct (eventful_reach _ _ _ H) as [D HR]. eapply placed_booms; [done|done|done|by apply IH].
Qed.

(* ---- what is true after panics ---- *)
Lemma lost_sound D y j s : Reach D y → shard_at y j = Some s →
  sh_len s = N.of_nat (length (sh_iter s)) ∧
  sh_weight s = (if (wsum (sh_iter s) <? two64)%N then Ok (wsum (sh_iter s)) else Fail WeightOvf) ∧
  ukeys (sh_iter s) ∧ sh_capacity s = cap ∧ (∀ k, u_peek s k = Ok (value_of k (sh_iter s))) ∧
  (N.of_nat (length (remembered s)) ≤ ghosts)%N.
Proof.
  intros HR Hs. destruct (ci_inv _ _ _ _ _ (rc_c _ HR) j s Hs) as [HI Hcf]. unfold cfg in Hcf. injection Hcf as E1 E2 E3. split_and!.
  - by apply len_exact.
  - by apply weight_exact.
  - by apply (inv_ukeys LW).
  - done.
  - intros k. unfold u_peek. by rewrite (sh_peek_spec LW s k HI).
  - by apply inv_ghosts.
Qed.
Lemma lost_fails D dbg y lb f : Reach D y → cstep dbg y lb = Some (Fail f) → gives_out budget cap y lb f.
Proof.
  intros HR Hc. destruct (cstep_fails LW PI _ _ _ _ HR Hc) as (a & ag & j & s & z & -> & Ha & Hz & Hs & Hf).
  destruct (ci_inv _ _ _ _ _ (rc_c _ HR) j s Hs) as [HI Hcf]. unfold cfg in Hcf. injection Hcf as E1 E2 E3.
  exists a, ag, j, s. split; [done|]. split; [done|]. split; [done|].
  assert (∀ n, (two32 ≤ used s + n → two32 ≤ storage s + n)%N) as Hst by (intros n; pose proof (used_slots s); rewrite storage_slots; lia).
  destruct f; simpl in Hf; try done.
  - left. split; [done|]. apply Hst. by destruct z.
  - right. split; [done|]. rewrite E1, E2 in Hf. destruct z as [m|k|rs p ref v wl|p]; try done.
    + left. exists m. split; [|done]. pose proof (rc_h _ HR) as HH. pose proof (hi_active (LG:=lost P D) y a ag HH Ha) as Hh.
      destruct (a_pc ag) eqn:Epc; simpl in Hz; try done; injection Hz as <- <-; specialize (Hh ltac:(done)); simpl in Hh; [by destruct Hh as (? & ? & _)|by destruct Hh].
    + right. destruct Hf as (k & Hk & Ho). exists p, rs, v, wl, ref, k.
      split; [|split; [|done]]; [|by apply pending_of]. destruct (a_pc ag); simpl in Hz; try done. by injection Hz as -> -> -> -> -> ->.
Qed.
Lemma lost_bounded D dbg y : Reach D y →
  (∃ n, ∀ ls' y', only_go ls' → steps dbg y ls' y' → length ls' ≤ n) ∧
  (∃ ls' y', only_go ls' ∧ steps dbg y ls' y' ∧ (at_rest dbg y' ∨ ∃ a f, go dbg y' a = Some (Fail f))).
Proof.
  intros HR. split.
  - exists (total y). intros ls' y' Hgo Hs. destruct (steps_cons_go LW PI _ _ _ _ HR Hgo Hs) as [_ H]. lia.
  - remember (total y) as n eqn:En. revert y HR En. induction n as [n IH] using (well_founded_induction lt_wf). intros y HR En.
    destruct (rest_or_go dbg y) as [Hr|(a & [y1|f] & Hg)].
    + exists [], y. split; [by constructor|]. split; [constructor|by left].
    + assert (cstep dbg y (Go a) = Some (Ok y1)) as Hc by done.
      pose proof (go_decreases LW PI _ _ _ _ HR Hc) as Hlt.
      destruct (IH (total y1) ltac:(lia) y1 (reach_step LW PI _ _ _ _ HR Hc) eq_refl) as (ls' & y' & H1 & H2 & H3).
      exists (Go a :: ls'), y'. split; [constructor; eauto|]. split; [|done].
      clear -H2 Hc. induction H2 as [y1|y1 ls y2 lb y3 H2 IH Hc2].
      * change [Go a] with ([] ++ [Go (P:=P) a]). econstructor; [constructor|done].
      * change (Go a :: ls ++ [lb]) with ((Go a :: ls) ++ [lb]). econstructor; [by apply IH|done].
    + exists [], y. split; [by constructor|]. split; [constructor|right; eauto].
Qed.
Lemma rest_case dbg y F a ag : at_rest_but dbg y F → y_agents y !! a = Some ag →
  rest_pc (a_pc ag) (a_token ag) ∨ (a ∈ F ∧ ∃ j p rs v wl ref, a_pc ag = FillWant j p rs v wl ref).
Proof.
  intros [HF Hr] Ha. destruct (decide (a ∈ F)) as [Hin|Hin].
  { right. split; [done|]. destruct (HF a Hin) as (ag' & j & p & rs & v & wl & ref & Ha' & E). rewrite Ha in Ha'. injection Ha' as <-. by eexists _, _, _, _, _, _. }
  left. pose proof (Hr a Hin) as Hg. unfold go in Hg. rewrite Ha in Hg. destruct (wants a (a_pc ag)) as [w|] eqn:Hw.
  - destruct (free y w) eqn:Hf; [done|]. destruct (blocked_by dbg y 3 a ag w Ha Hw ltac:(lia) Hf) as (b & bg & Hb & Hh & Hgo).
    destruct (decide (b ∈ F)) as [Hbin|Hbin]; [|by destruct (Hgo (Hr b Hbin))].
    destruct (HF b Hbin) as (bg' & j & p & rs & v & wl & ref & Hb' & E). rewrite Hb in Hb'. injection Hb' as <-. by rewrite E in Hh.
  - unfold act in Hg. destruct (a_pc ag); try done; simpl in *.
    + by destruct js.
    + by destruct (a_token ag).
    + destruct ws as [|[b [|]] ws]; [by destruct nm|done|done].
Qed.
Lemma rest_free dbg y F a ag : at_rest_but dbg y F → y_agents y !! a = Some ag → a ∉ F →
  Conc.holds a (a_pc ag) = [] ∧ wants a (a_pc ag) = None.
Proof. intros Hr Ha Hin. destruct (rest_case _ _ _ _ _ Hr Ha) as [H|[? _]]; [unfold rest_pc in H; by destruct (a_pc ag)|done]. Qed.
Lemma rest_flag D dbg y F a ag j p tm : Reach D y → at_rest_but dbg y F → y_agents y !! a = Some ag → a_pc ag = JPark j p tm → a_flag ag = false.
Proof.
  intros HR Hrest Ha Epc. destruct (rest_case _ _ _ _ _ Hrest Ha) as [Hx|(_ & ? & ? & ? & ? & ? & ? & E)]; [|congruence]. rewrite Epc in Hx. simpl in Hx.
  pose proof (ni_token _ (rc_n _ HR) _ _ Ha) as Ht. rewrite Epc in Ht. simpl in Ht. destruct (a_flag ag); [|done]. exfalso.
  destruct (Ht eq_refl) as [Ht'|(c & cg & ? & ? & ? & ? & Hcg & E)]; [congruence|].
  destruct (rest_case _ _ _ _ _ Hrest Hcg) as [Hx'|(_ & ? & ? & ? & ? & ? & ? & E')]; [by rewrite E in Hx'|congruence].
Qed.
Lemma rest_waits D dbg y F l a : Reach D y → at_rest_but dbg y F → waits_for y l a → ∃ b, guard_held y l b ∨ woken_future y l b.
Proof.
  intros HR Hrest (ag & j & p & Ha & -> & Hw). pose proof (ci_load _ _ _ _ _ (rc_c _ HR) (pl j p)) as HL.
  assert (∃ t, role y (pl j p) a = QWait t ∧ flag y a = false) as (t & Hro & Hfl).
  { destruct Hw as [[tm Epc]|(wk & Epc & Hf)].
    - exists false. split; [by eapply role_of; [done|by rewrite Epc]|]. rewrite (flag_at _ _ _ Ha). by eapply rest_flag.
    - exists true. split; [by eapply role_of; [done|by rewrite Epc]|]. by rewrite (flag_at _ _ _ Ha). }
  assert (v_on (lview y (pl j p)) = true) as Hon. { apply (role_on _ a HL). simpl. by rewrite Hro. }
  assert ((a, t) ∈ waiting_on y (pl j p)) as Hin.
  { destruct (l_reg _ HL a t Hro Hfl) as [?|[c Hc]]; [done|]. exfalso. unfold pend in Hc. simpl in Hc.
    destruct (role y (pl j p) c) eqn:Er; try (by apply elem_of_nil in Hc);
      (destruct (role_some y _ c _ Er ltac:(done)) as (cg & j' & p' & Hcg & Hp & _);
       destruct (rest_case _ _ _ _ _ Hrest Hcg) as [Hx|(_ & ? & ? & ? & ? & ? & ? & E)]; [unfold rest_pc in Hx; by destruct (a_pc cg)|by rewrite E in Hp]). }
  assert (at_load y (pl j p) = Loading) as Hld.
  { destruct (at_load y (pl j p)) as [|v|] eqn:E; [done|..]; exfalso.
    - destruct (l_ins _ HL v E) as [H _]. simpl in H. rewrite H in Hin. by apply elem_of_nil in Hin.
    - destruct (l_term _ HL E) as [H _]. simpl in H. rewrite H in Hin. by apply elem_of_nil in Hin. }
  destruct (l_owner _ HL Hld Hon) as [b Hb]. exists b. unfold owns in Hb. simpl in Hb.
  destruct (role y (pl j p) b) eqn:Er; try done;
    (destruct (role_some y _ b _ Er ltac:(done)) as (bg & j' & p' & Hbg & Hp & Heq);
     destruct (rest_case _ _ _ _ _ Hrest Hbg) as [Hx|(_ & ? & ? & ? & ? & ? & ? & E)]; [unfold rest_pc in Hx|by rewrite E in Hp]).
  - right. rewrite (flag_at _ _ _ Hbg) in Hb. destruct (a_pc bg) eqn:Epc; try done.
    + exfalso. rewrite (rest_flag _ _ _ _ _ _ _ _ _ HR Hrest Hbg Epc) in Hb. done.
    + injection Hp as -> -> <-. exists bg, j', p', wk. split_and!; try done. pose proof (ni_waker _ (rc_n _ HR) _ _ Hbg) as Hwk. rewrite Epc in Hwk. simpl in Hwk. by apply Hwk.
  - by destruct (a_pc bg).
  - left. destruct (a_pc bg) eqn:Epc; try done. injection Hp as -> ->. exists bg, j', p'. done.
  - by destruct (a_pc bg).
Qed.
Lemma lost_one D y l a b : Reach D y → guard_held y l a → guard_held y l b → a = b.
Proof.
  intros HR (ag & j & p & Ha & Epc & E) (bg & j' & p' & Hb & Epc' & E').
  pose proof (ci_load _ _ _ _ _ (rc_c _ HR) l) as HL.
  assert (role y l a = QGuard) as Ra by (subst; by eapply role_of; [done|by rewrite Epc]).
  assert (role y l b = QGuard) as Rb by (rewrite E'; by eapply role_of; [done|by rewrite Epc']).
  assert (at_load y l = Loading) as Hld by (by apply (Proto.guard_loading (lview y l) a HL Ra)).
  apply (l_one _ HL Hld); unfold owns; simpl; by rewrite ?Ra, ?Rb.
Qed.
Lemma step_told D dbg y lb y' a l v : Reach D y → cstep dbg y lb = Some (Ok y') →
  (a, EvRet (RetVal v (Some l))) ∈ y_log y' → (a, EvRet (RetVal v (Some l))) ∈ y_log y ∨ ∃ b, (b, EvPut l v) ∈ y_log y.
Proof.
  intros HR Hc Hin. pose proof (rc_c _ HR) as HC. pose proof (cstep_stepped LW PI _ _ _ _ HC Hc) as Hst.
  assert (∀ l v, at_load y l = Inserted v → ∃ b, (b, EvPut l v) ∈ y_log y) as Hput.
  { intros l0 v0 E. pose proof (ci_load _ _ _ _ _ HC l0) as HL. by destruct (l_ins _ HL v0 E) as (_ & ? & _). }
  destruct Hst as [b ag x' es us Ha M Hm|lb b ag x' es Ha M Hm|c x Hf ->|d ->].
  - rewrite (md_log _ _ _ _ _ _ Hm) in Hin. apply elem_of_app in Hin as [?|Hin]; [by left|]. right.
    apply elem_of_list_fmap in Hin as (ev & [= -> <-] & Hev).
    destruct M; try match goal with H : starts _ _ _ _ _ _ |- _ => destruct H end;
      repeat (apply elem_of_cons in Hev as [Hev|Hev]); try (by apply elem_of_nil in Hev); try done; try (injection Hev as -> ->; by apply Hput);
      try (destruct sm; simpl in Hev; by repeat (apply elem_of_cons in Hev as [Hev|Hev]); try (by apply elem_of_nil in Hev)).
    injection Hev as Hev. destruct c; subst; done.
  - rewrite (md_log _ _ _ _ _ _ Hm) in Hin. apply elem_of_app in Hin as [?|Hin]; [by left|]. right.
    apply elem_of_list_fmap in Hin as (ev & [= -> <-] & Hev).
    destruct M; repeat (apply elem_of_cons in Hev as [Hev|Hev]); try (by apply elem_of_nil in Hev); done.
  - simpl in Hin. apply elem_of_app in Hin as [?|Hin]; [by left|]. apply elem_of_list_singleton in Hin. done.
  - by left.
Qed.
Lemma step_log dbg y lb y' : stepped dbg y y' lb → ∃ es, y_log y' = y_log y ++ es.
Proof. intros H. destruct (one_entry dbg y lb y' 0 H) as (es & ? & _). by exists es. Qed.
Lemma eventful_told dbg hs y a l v : eventful dbg (sys_new budget ghosts cap e) hs y →
  (a, EvRet (RetVal v (Some l))) ∈ y_log y → ∃ b, (b, EvPut l v) ∈ y_log y.
Proof.
  intros H. remember (sys_new budget ghosts cap e) as y0 eqn:E. induction H as [y0|y0 hs y1 lb y2 H IH Hs|y0 hs y1 c q y2 H IH Hin Hq]; subst.
  - intros Hin. simpl in Hin. by apply elem_of_nil in Hin.
  - destruct (eventful_reach _ _ _ H) as [D HR]. intros Hin. pose proof (cstep_stepped LW PI _ _ _ _ (rc_c _ HR) Hs) as Hst.
    destruct (step_log _ _ _ _ Hst) as [es Hl].
    destruct (step_told _ _ _ _ _ _ _ _ HR Hs Hin) as [Ho|[b Hb]]; [destruct (IH eq_refl Ho) as [b Hb]|]; exists b; rewrite Hl; apply elem_of_app; by left.
  - destruct (booms_case _ _ _ _ Hin) as [_ El _]. rewrite El. by apply IH.
Qed.
Lemma put_same D y a b l v v' : Reach D y → (a, EvPut l v) ∈ y_log y → (b, EvPut l v') ∈ y_log y → v = v'.
Proof.
  intros HR Ha Hb. pose proof (ci_load _ _ _ _ _ (rc_c _ HR) l) as HL.
  assert (v_load (lview y l) = Inserted v) as E1 by (apply (l_put _ HL); by exists a).
  assert (v_load (lview y l) = Inserted v') as E2 by (apply (l_put _ HL); by exists b). congruence.
Qed.
(* ---- what the panic itself does ---- *)
Lemma boom_does D y a q y' : Reach D y → (q, y') ∈ booms y a → harmless_at q = true →
  y_log y' = y_log y ∧ y_now y' = y_now y ∧ length (y_agents y') = length (y_agents y) ∧
  (∀ b, b ≠ a → y_agents y' !! b = y_agents y !! b) ∧
  (∃ ag ag', y_agents y !! a = Some ag ∧ y_agents y' !! a = Some ag' ∧
     (a_pc ag' = ADone RetCancel ∨ ∃ j p rs v wl, a_pc ag = IIn j p rs v wl ∧ a_pc ag' = DWant j p)) ∧
  (∀ j s, shard_at y j = Some s → ∃ s', shard_at y' j = Some s' ∧ (∀ n, (n < sh_nph s)%N → y_ph y' (j, n) = y_ph y (j, n)) ∧
     (s' = s ∨ ∃ ag z, y_agents y !! a = Some ag ∧ running (a_pc ag) = Some (j, z) ∧ panic_hits q z s s')).
Proof.
  intros HR Hin Hq. destruct (booms_case _ _ _ _ Hin) as [(ag & Ha & Ht & Eag & Hcase) El En].
  split; [done|]. split; [done|]. split; [by rewrite Eag, alter_length|]. split; [intros b Hb; rewrite Eag; by apply list_lookup_alter_ne|]. split.
  - exists ag, (set_apc (unwound (a_pc ag)) ag). split; [done|]. split; [by rewrite Eag, list_lookup_alter, Ha|].
    destruct ag as [? ? x]; destruct x; simpl; try (by left). right. by eexists _, _, _, _, _.
  - intros j s Hs. destruct Hcase as [(Hr0 & Ec & Ep)|(i & z & s0 & s' & q' & Hr & Hs0 & Hp & -> & ->)].
    + exists s. unfold shard_at in *. rewrite Ec, Ep. by auto.
    + destruct (cinv_torn D D y a ag i z s0 q' s' (rc_c _ HR) Ha Hr Hs0 Hp Hq) as [_ Hhit].
      erewrite (shard_put y _ i s0 s' j) by done. simpl. case_decide as E.
      * subst j. rewrite Hs0 in Hs. injection Hs as ->. exists s'. split; [done|]. split; [|right; by exists ag, z].
        intros n Hn. rewrite decide_False; [done|]. simpl. intros (_ & ? & _). lia.
      * exists s. split; [done|]. split; [|by left]. intros n Hn. rewrite decide_False; [done|]. simpl. intros (? & _). done.
Qed.
End concpanicproofs.
