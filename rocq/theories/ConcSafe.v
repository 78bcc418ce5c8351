(* What PropsConc.v needs besides: failing steps, runs to rest, loads that are over, stale inserts,
   the state of the shards. *)
From stdpp Require Import prelude list functions.
From Verif Require Export ConcWild.

Section concsafe.
Context {P : Params} (LW : Lawful P) (PI : ptr_ids P = true) {LG : Ledger P}.
Context {budget ghosts cap e : N}.
Notation K := (K P). Notation V := (V P). Notation RS := (RS P).
Notation shard := (shard P). Notation sys := (sys P). Notation pc := (pc P). Notation agent := (agent P).
Notation CInv := (CInv budget ghosts cap e). Notation Reach := (@Reach P LG budget ghosts cap e).
Implicit Types (s : shard) (k : K) (v : V) (rs : RS) (p : plh) (a b : nat) (l : loc) (j : nat) (y : sys) (x : pc) (ag : agent).
Implicit Types (c : call P) (h : list (cevent P)) (g es : list (nat * cevent P)).

(* ---- failures ---- *)
Definition mild (f : fail) : Prop := f = SlabFull ∨ f = WeightOvf.
Definition sect_pc x : option (nat * sect P) :=
  match x with
  | PIn j m | PAllIn m j _ => Some (j, XCmd m)
  | JIn j k _ => Some (j, XJoin k)
  | FillIn j p rs v wl ref => Some (j, XFill rs p ref v wl)
  | DIn j p => Some (j, XDrop p)
  | _ => None
  end.
Lemma cstep_fails dbg y lb f : Reach y → cstep dbg y lb = Some (Fail f) →
  ∃ a ag j s z, lb = Go a ∧ y_agents y !! a = Some ag ∧ sect_pc (a_pc ag) = Some (j, z) ∧ shard_at y j = Some s ∧ xfails s z f.
Proof.
  intros HR H. pose proof (cstep_keeps LW PI _ _ _ _ (rc_c _ HR) H) as Hk. simpl in Hk.
  assert (mild f) as Hm. { destruct Hk as (j & s & z & _ & _ & Hx). unfold mild. destruct f; simpl in Hx; try done; auto. }
  assert (∀ A (o : option A), unwrap o ≠ Fail f) as Hu. { intros A [|]; simpl; [done|]. intros [= <-]. by destruct Hm. }
  assert (∀ s i, entry_at s i ≠ Fail f) as He.
  { intros s i. unfold entry_at. destruct (slab_get (sh_ents s) i) as [[? ?]|]; simpl; [done|]. intros [= <-]. by destruct Hm. }
  assert (Panic ≠ f ∧ UB ≠ f) as [Hp1 Hp2] by (by destruct Hm as [-> | ->]).
  assert (∀ k c, first_pc y c ≠ Some (Fail f) ∧ k = k :> K) as Hfp.
  { intros k c. split; [|done]. unfold first_pc. destruct c as [m|k0 to|k0].
    - destruct (sync_cmd m); [|done]. destruct (key_of m) as [k1|]; [|done]. destruct (shard_for _ _); simpl; congruence.
    - destruct (shard_for _ _); simpl; congruence.
    - destruct (shard_for _ _); simpl; congruence. }
  destruct lb as [c|a|a|d|a wk|a|a rs v wl|a].
  - simpl in H. destruct (first_pc y c) as [[x|f']|] eqn:Ef; simpl in H; try done. injection H as ->.
    destruct c as [m|k to|k]; [|by destruct (Hfp k (KLoad k to))|by destruct (Hfp k (KFut k))]. simpl in Ef. destruct (sync_cmd m); [|done].
    destruct (key_of m) as [k|] eqn:Ek; [|done]. destruct (shard_for _ _); simpl in Ef; congruence.
  - simpl in H. unfold go in H. destruct (y_agents y !! a) as [ag|] eqn:Ha; [|done].
    destruct (wants a (a_pc ag)) as [w|] eqn:Hw; [by destruct (free y w)|].
    assert (∀ j z, sect_pc (a_pc ag) = Some (j, z) → section y a j z = Fail f →
      ∃ a0 ag j s z, Go (P:=P) a = Go a0 ∧ y_agents y !! a0 = Some ag ∧ sect_pc (a_pc ag) = Some (j, z) ∧ shard_at y j = Some s ∧ xfails s z f) as Hsec.
    { intros j z Hz Hf. exists a, ag, j. pose proof (ci_pc _ _ _ _ _ (rc_c _ HR) _ _ Ha) as Hok.
      assert (j ∈ pc_shards (a_pc ag)) as Hj. { destruct (a_pc ag); simpl in Hz; try done; injection Hz as <- <-; simpl; left. }
      pose proof (proj1 (Forall_forall _ _) (po_shards _ _ Hok) j Hj) as Hlt. apply lookup_lt_is_Some in Hlt as [s Hs].
      exists s, z. split_and!; try done.
      assert (sync_sect z) as Hss. { pose proof (po_shape _ _ Hok) as Hsh. destruct (a_pc ag); simpl in Hz; try done; injection Hz as <- <-; simpl in *; try done; apply Hsh. }
      assert (∀ p, handle_of z = Some p → hgood s p) as Hh.
      { intros p Hp. assert (∃ r, part_of (a_pc ag) = Some (j, p, r)) as [r Hr].
        { destruct (a_pc ag); simpl in Hz; try done; injection Hz as <- <-; simpl in *; try done; injection Hp as <-; eauto. }
        by eapply (po_handle _ _ Hok). }
      destruct (ci_inv _ _ _ _ _ (rc_c _ HR) _ _ Hs) as [HI _]. pose proof (xexec_spec LW PI s z HI Hss Hh) as Hx.
      unfold section, on_shard in Hf. unfold shard_at in Hs. rewrite Hs in Hf. simpl in Hf. destruct (xexec s z) as [[s' r]|f']; simpl in *; [done|]. by injection Hf as ->. }
    assert (∀ k s, search_resident s (hash P k) k ≠ Fail f) as Hsr.
    { intros k s. unfold search_resident, tfind. assert (∀ ts, scan ts (res_match s k) ≠ Fail f) as Hsc.
      { induction ts as [|t ts IH]; simpl; [done|]. unfold res_match at 1. destruct (entry_at s t) as [z|] eqn:Ez; simpl; [|specialize (He s t); congruence].
        destruct z; simpl; try done. by destruct (keqb P k (r_key r)). }
      destruct (scan _ _) as [[i|]|] eqn:E1; simpl; [|done|specialize (Hsc (probe P (sh_map s) (hash P k))); congruence].
      destruct (entry_at s i) as [z|] eqn:Ez; simpl; [|specialize (He s i); congruence]. destruct z; congruence. }
    assert (∀ j, read_shard y j ≠ Fail f) as Hrd by (intros; apply Hu).
    assert (∀ y j p w, leave y j p w ≠ Fail f) as Hlv.
    { intros y0 j p w. unfold leave. destruct (list_find _ _) as [[i z]|]; simpl; congruence. }
    unfold act in H. destruct (a_pc ag) eqn:Epc; cbn [sect_pc wants] in *; try done;
      try (injection H as H;
      match type of H with context [section y a ?j ?z] =>
        destruct (section y a j z) as [[y1 r]|f'] eqn:Es; cbn [rbind] in H;
          [destruct r; cbn in H; congruence|injection H as ->; by eapply Hsec]
      end).
    + by destruct js.
    + injection H as H. unfold get_found in H. specialize (Hrd j). destruct (read_shard y j) as [s|f']; cbn [rbind] in H; [|congruence].
      specialize (Hsr k s). destruct (search_resident _ _ _) as [[[i r]|]|f']; cbn in H; congruence.
    + injection H as H. specialize (Hrd j). destruct (read_shard y j) as [s|f']; cbn [rbind] in H; [|congruence].
      unfold fetch_add in H. specialize (He s i). destruct (entry_at s i) as [[]|]; cbn in H; congruence.
    + injection H as H. unfold get_hit in H. specialize (Hrd j). destruct (read_shard y j) as [s|f']; cbn in H; congruence.
    + injection H as H. unfold get_miss in H. specialize (Hrd j). destruct (read_shard y j) as [s|f']; cbn in H; congruence.
    + injection H as H. destruct (at_load _ _); cbn in H; congruence.
    + injection H as H. unfold push_waiter in H. destruct (at_load _ _); cbn in H; congruence.
    + by destruct (a_token ag).
    + injection H as H. destruct (a_flag ag); [done|]. specialize (Hlv y j p (a, false)). destruct (leave _ _ _ _); cbn in H; congruence.
    + injection H as H. destruct (at_load _ _); cbn in H; congruence.
    + injection H as H. destruct (a_flag ag); [by destruct (at_load _ _)|]. specialize (Hlv y j p (a, true)). destruct (leave _ _ _ _); cbn in H; congruence.
    + destruct ws as [|[b [|]] ws]; [by destruct nm|done|done].
    + injection H as H. destruct (list.last _) as [w|].
      * destruct (at_load _ _), dbg; cbn in H; congruence.
      * set (y0 := with_ph y (pl j p) _) in *.
        assert (section y0 a j (XDrop p) = Fail f) as Hs. { destruct (section y0 a j (XDrop p)) as [[? ?]|]; cbn in H; congruence. }
        assert (section y a j (XDrop p) = Fail f) as Hs'; [|by eapply Hsec].
        unfold section in *. change (y_cache y0) with (y_cache y) in Hs. destruct (on_shard _ _ _) as [[? ?]|]; cbn in *; congruence.
  - simpl in H. destruct (a_pc <$> y_agents y !! a) as [[]|]; done.
  - done.
  - simpl in H. destruct (a_pc <$> y_agents y !! a) as [[]|]; done.
  - simpl in H. destruct (a_pc <$> y_agents y !! a) as [[]|]; done.
  - simpl in H. destruct (a_pc <$> y_agents y !! a) as [[]|]; done.
  - simpl in H. destruct (a_pc <$> y_agents y !! a) as [[]|]; done.
Qed.

(* ---- runs ---- *)
Lemma steps_trans dbg y ls y1 ls' y2 : steps dbg y ls y1 → steps dbg y1 ls' y2 → steps dbg y (ls ++ ls') y2.
Proof.
  intros H1 H2. induction H2 as [y1|y1 ls' y3 lb y4 H2 IH Hc]; [by rewrite app_nil_r|]. rewrite app_assoc. eapply st_snoc; [by apply IH|done].
Qed.
Lemma settles dbg y : Reach y → ∃ ls y', only_go ls ∧ steps dbg y ls y' ∧ (at_rest dbg y' ∨ ∃ a f, go dbg y' a = Some (Fail f)).
Proof.
  remember (total y) as n eqn:En. revert y En. induction (lt_wf n) as [n _ IH]. intros y -> HR.
  destruct (rest_or_go dbg y) as [Hr|(a & [y1|f] & Hg)].
  - exists [], y. split_and!; [by constructor|constructor|by left].
  - destruct (IH (total y1) (go_decreases LW PI _ _ _ _ HR Hg) y1 eq_refl (reach_step LW PI _ _ (Go a) _ HR Hg)) as (ls & y' & Ho & Hs & Hd).
    exists (Go a :: ls), y'. split_and!; [constructor; [by exists a|done]| |done].
    apply (steps_trans dbg y [Go a] y1 ls); [|done]. apply (st_snoc dbg y [] y (Go a)); [constructor|done].
  - exists [], y. split_and!; [by constructor|constructor|right; eauto].
Qed.

End concsafe.

Section concover.
Context {P : Params} (LW : Lawful P) (PI : ptr_ids P = true).
Context {budget ghosts cap e : N}.
Notation K := (K P). Notation V := (V P). Notation RS := (RS P).
Notation shard := (shard P). Notation sys := (sys P). Notation pc := (pc P). Notation agent := (agent P).
Notation CInv := (CInv budget ghosts cap e). Notation Reach := (@Reach P (full P) budget ghosts cap e).
Implicit Types (s : shard) (k : K) (v : V) (rs : RS) (p : plh) (a b : nat) (l : loc) (j : nat) (y : sys) (x : pc) (ag : agent).
Implicit Types (c : call P) (h : list (cevent P)) (g es : list (nat * cevent P)).
(* ---- waiters of a load that got its value ---- *)
Lemma wait_here mask n c x h l tok : hpc mask n c x h → rest_pc x tok → EvWait l ∈ h →
  (∃ r, x = ADone r) ∨ ∃ j p, part_of x = Some (j, p, match x with AGuard _ _ => QGuard | FIdle _ _ _ => QWait true | _ => QWait false end) ∧ l = pl j p.
Proof.
  intros Hh Hx Hin. destruct x; try done; simpl in Hh; [| | | |left; eauto].
  - right. exists j, p. split; [done|]. destruct Hh as (k & _ & _ & ->). unfold queued in Hin. apply elem_of_app in Hin as [Hin|Hin].
    + unfold asked in Hin. rewrite !elem_of_cons, elem_of_nil in Hin. naive_solver.
    + rewrite !elem_of_cons, elem_of_nil in Hin. naive_solver.
  - destruct Hh as (_ & _ & ->). rewrite elem_of_list_singleton in Hin. done.
  - right. exists j, p. split; [done|]. destruct Hh as (k & _ & _ & ->). unfold queued in Hin. apply elem_of_app in Hin as [Hin|Hin].
    + unfold asked in Hin. rewrite !elem_of_cons, elem_of_nil in Hin. naive_solver.
    + rewrite !elem_of_cons, elem_of_nil in Hin. naive_solver.
  - right. exists j, p. split; [done|]. destruct Hh as (k & _ & _ & Hg). destruct Hg; unfold began, queued, asked in Hin; simpl in Hin;
      rewrite !elem_of_cons, elem_of_nil in Hin; naive_solver.
Qed.
Lemma released dbg y l a v b : Reach y → GInv y → at_rest dbg y → (a, EvPut l v) ∈ y_log y → (b, EvWait l) ∈ y_log y →
  returned (y_log y) b ∨ woken_future y l b.
Proof.
  intros HR HG Hrest Hput Hw. pose proof (hi_log _ (rc_h _ HR) _ _ Hw) as Hlt. apply lookup_lt_is_Some in Hlt as [ag Ha].
  pose proof (hi_agent _ (rc_h _ HR) _ _ Ha) as Hh. assert (EvWait l ∈ hist (y_log y) b) as Hin by (by apply (hist_in _ _ (EvWait l) eq_refl)).
  pose proof (rest_agent _ _ _ _ Hrest Ha) as Hx. destruct (plog_charge _ (gi_proper _ HG) l) as [_ Hno].
  specialize (Hno (or_introl (ex_intro _ a (ex_intro _ v Hput)))).
  destruct (wait_here _ _ _ _ _ _ _ Hh Hx Hin) as [[r E]|(j & p & Hp & ->)].
  - left. exists r. rewrite E in Hh. simpl in Hh. destruct Hh as (h0 & _ & Eh). apply hist_in; [done|]. rewrite Eh. apply elem_of_app. right. by left.
  - assert (¬ waiting (y_log y) (pl j p) b) as Hnw. { intros H. destruct (rest_waiting _ _ _ _ HR Hrest H) as (a' & Hc & _). by apply (Hno a'). }
    assert (role y (pl j p) b = match a_pc ag with AGuard _ _ => QGuard | FIdle _ _ _ => QWait true | _ => QWait false end) as Hr by (by eapply role_of).
    assert (∀ t, role y (pl j p) b = QWait t → a_flag ag = true) as Hf.
    { intros t Ht. destruct (a_flag ag) eqn:Ef; [done|]. destruct Hnw. apply (waiting_iff _ _ _ HR). exists t. split; [done|]. unfold flag. by rewrite Ha. }
    destruct (a_pc ag) eqn:Epc; try done.
    + exfalso. pose proof (ni_token _ (rc_n _ HR) _ _ Ha) as Ht. rewrite Epc in Ht. simpl in Ht, Hx.
      destruct (Ht (Hf _ Hr)) as [Ht'|(c & cg & ? & ? & ? & ? & Hcg & E)]; [congruence|]. pose proof (rest_agent _ _ _ _ Hrest Hcg) as Hx'. by rewrite E in Hx'.
    + right. simpl in Hp. injection Hp as -> ->. exists ag, j, p, wk. pose proof (Hf _ Hr) as Hf'. split_and!; try done.
      pose proof (ni_waker _ (rc_n _ HR) _ _ Ha) as Hk. rewrite Epc in Hk. simpl in Hk. by apply Hk.
    + exfalso. apply (Hno b). apply (in_charge_iff _ _ _ HR). split.
      * pose proof (put_load _ _ _ _ HR Hput) as Hl. pose proof (ci_load _ _ _ _ _ (rc_c _ HR) (pl j p)) as HL. exfalso.
        apply (l_insg _ HL v Hl b). unfold guardish. simpl. by rewrite Hr.
      * left. unfold keeps. simpl. by rewrite Hr.
Qed.

(* ---- loads that are over ---- *)
Lemma joinable y l : Reach y → would_join y l → at_load y l ≠ Terminated.
Proof.
  intros HR (s & k & s' & p & n & Hs & Hu & Hid). destruct (ci_inv _ _ _ _ _ (rc_c _ HR) l.1 s Hs) as [HI _].
  assert (∃ r, xexec s (XJoin k) = Ok (s', r) ∧ r = (if n then XNew p else XWait p)) as (r & Hx & Hr).
  { simpl. rewrite Hu. simpl. by destruct n; eauto. }
  pose proof (xexec_spec LW PI s (XJoin k) HI I ltac:(done)) as Hsp. rewrite Hx in Hsp. simpl in Hsp.
  pose proof (xo_does _ _ _ _ Hsp) as Hd. intros Ht. pose proof (ci_load _ _ _ _ _ (rc_c _ HR) l) as HL.
  destruct n; subst r; unfold abs in Hd; simpl in Hd.
  - destruct Hd as (_ & _ & Hn & _). destruct (l_off _ HL) as [H _]; [|simpl in H; congruence].
    simpl. apply bool_decide_eq_false. unfold next_id. change (shard_at y l.1 = Some s) in Hs. rewrite Hs. lia.
  - destruct Hd as (_ & (k' & Hp & _) & _). destruct (l_term _ HL Ht) as (_ & Hm & _). apply Hm. simpl. unfold pend_at.
    change (shard_at y l.1 = Some s) in Hs. rewrite Hs, <-Hid, Hp. eauto.
Qed.

(* ---- a stale insert ---- *)
Lemma stale_same dbg y lb y' a v : Reach y → cstep dbg y lb = Some (Ok y') →
  (a, EvRet (RetStale v)) ∈ y_log y' → (a, EvRet (RetStale v)) ∉ y_log y → y_cache y' = y_cache y.
Proof.
  intros HR Hc Hin Hout. pose proof (cstep_stepped LW PI _ _ _ _ (rc_c _ HR) Hc) as Hst.
  assert (∀ b h, y_log y' = y_log y ++ map (pair b) h → EvRet (RetStale v) ∈ h) as Hes.
  { intros b h E. rewrite E in Hin. apply elem_of_app in Hin as [|Hin]; [done|]. apply elem_of_list_fmap in Hin as (z & [= -> ->] & Hz). done. }
  destruct Hst as [b ag x' h us Ha M Hm|lb b ag x' h Ha M Hm|c x Hf Ey|d Ey].
  - pose proof (Hes _ _ (md_log _ _ _ _ _ _ Hm)) as Hh. simpl in Hc. unfold go in Hc. rewrite Ha in Hc.
    remember (a_pc ag) as x eqn:Epc. symmetry in Epc.
    assert (∃ j p rs v' wl ref, x = FillIn j p rs v' wl ref ∧ x' = ADone (RetStale v')) as (j & p & rs & v' & wl & ref & -> & ->).
    { destruct M; rewrite ?elem_of_cons, ?elem_of_nil in Hh; try naive_solver.
      - destruct c; naive_solver.
      - match goal with H : starts _ _ _ _ _ _ |- _ => destruct H end; simpl in Hh; rewrite ?elem_of_cons, ?elem_of_nil in Hh; naive_solver.
      - destruct sm; simpl in Hh; rewrite ?elem_of_cons, ?elem_of_nil in Hh; naive_solver.
      - match goal with H : starts _ _ _ _ _ _ |- _ => destruct H end; simpl in Hh; rewrite ?elem_of_cons, ?elem_of_nil in Hh; naive_solver.
      - match goal with H : starts _ _ _ _ _ _ |- _ => destruct H end; simpl in Hh; rewrite ?elem_of_cons, ?elem_of_nil in Hh; naive_solver. }
    simpl in Hc. unfold act in Hc. rewrite Epc in Hc. injection Hc as Hc.
    destruct (section y b j (XFill rs p ref v' wl)) as [[y1 r]|] eqn:Es; cbn [rbind] in Hc; [|done].
    destruct (section_eq _ _ _ _ _ _ Es) as (s & s' & Hs & Hx & ->).
    destruct (ci_inv _ _ _ _ _ (rc_c _ HR) _ _ Hs) as [HI _].
    assert (hgood s p) as Hg. { eapply (po_handle _ _ (ci_pc _ _ _ _ _ (rc_c _ HR) _ _ Ha)); [by rewrite Epc|exact Hs]. }
    pose proof (xexec_spec LW PI s (XFill rs p ref v' wl) HI I ltac:(by intros ? [= <-])) as Hsp. rewrite Hx in Hsp. simpl in Hsp.
    assert (r = XStale v') as ->.
    { clear -Hc Hm Ha. pose proof (md_lookup _ _ _ _ _ _ b Hm) as E. destruct r as [o| | | |v2|]; try done; injection Hc as <-; simpl in E;
        rewrite list_lookup_alter, Ha in E; simpl in E; rewrite decide_True in E by done; apply (f_equal (fmap a_pc)) in E; simpl in E; congruence. }
    pose proof (xo_stale _ _ _ _ Hsp _ eq_refl) as ->. injection Hc as <-. simpl. unfold with_shard. unfold shard_at in Hs.
    rewrite list_insert_id by done. by destruct (y_cache y).
  - pose proof (Hes _ _ (md_log _ _ _ _ _ _ Hm)) as Hh. destruct M; rewrite ?elem_of_cons, ?elem_of_nil in Hh; naive_solver.
  - exfalso. subst y'. simpl in Hin. rewrite elem_of_app, elem_of_list_singleton in Hin. naive_solver.
  - by subst y'.
Qed.

(* ---- the time a call was made ---- *)
Lemma born_step dbg y lb y' a ag : Reach y → cstep dbg y lb = Some (Ok y') → y_agents y !! a = Some ag →
  ∃ ag', y_agents y' !! a = Some ag' ∧ a_call ag' = a_call ag ∧ a_born ag' = a_born ag.
Proof.
  intros HR Hc Ha.
  assert (∀ b x' h us, moved y y' b x' h us → ∃ ag', y_agents y' !! a = Some ag' ∧ a_call ag' = a_call ag ∧ a_born ag' = a_born ag) as X.
  { intros b x' h us Hm. rewrite (md_lookup _ _ _ _ _ _ a Hm), Ha. eexists. split; [reflexivity|].
    case_decide; simpl; by rewrite eff_call, eff_born. }
  destruct (cstep_stepped LW PI _ _ _ _ (rc_c _ HR) Hc) as [b bg x' h us Hb M Hm|lb b bg x' h Hb M Hm|c x Hf Ey|d Ey]; [by eapply X..| |].
  - subst. simpl. exists ag. by rewrite lookup_app_l by (by eapply lookup_lt_Some).
  - subst. eauto.
Qed.
Lemma reach_steps dbg y ls y' : Reach y → steps dbg y ls y' → Reach y'.
Proof. intros HR H. induction H as [|y ls y' lb y'' H IH Hc]; [done|]. eapply (reach_step LW PI); [by apply IH|done]. Qed.
Lemma born_steps dbg y ls y' a ag : Reach y → steps dbg y ls y' → y_agents y !! a = Some ag →
  ∃ ag', y_agents y' !! a = Some ag' ∧ a_call ag' = a_call ag ∧ a_born ag' = a_born ag.
Proof.
  intros HR H Ha. induction H as [|y ls y' lb y'' H IH Hc]; [eauto|]. destruct (IH HR Ha) as (ag' & Ha' & E1 & E2).
  destruct (born_step dbg y' lb y'' a ag' (reach_steps _ _ _ _ HR H) Hc Ha') as (ag2 & Ha2 & E3 & E4). exists ag2. by rewrite E3, E4.
Qed.
(* a call that timed out was made at least its timeout ago *)
Lemma timeout_late dbg y c y1 ls y' : Reach y → cstep dbg y (Spawn c) = Some (Ok y1) → steps dbg y1 ls y' →
  (length (y_agents y), EvRet RetTimeout) ∈ y_log y' → ∃ k to, c = KLoad k (Some to) ∧ (y_now y + to ≤ y_now y')%N.
Proof.
  intros HR Hc Hs Hin. pose proof (reach_step LW PI _ _ _ _ HR Hc) as HR1. pose proof (reach_steps _ _ _ _ HR1 Hs) as HR'.
  assert (∃ x, y_agents y1 !! length (y_agents y) = Some (Agent c (y_now y) x false false 0 None)) as [x Ha].
  { simpl in Hc. destruct (first_pc y c) as [[x|]|]; try done. cbn in Hc. injection Hc as <-. exists x. simpl. by apply list_lookup_middle. }
  destruct (born_steps _ _ _ _ _ _ HR1 Hs Ha) as (ag & Ha' & E1 & E2). simpl in E1, E2.
  destruct (returned_done _ _ HR' (ex_intro _ RetTimeout Hin)) as (ag' & r & Hag & Epc & Hr & _). rewrite Ha' in Hag. injection Hag as <-.
  assert (r = RetTimeout) as -> by (by eapply (returned_unique _ _ _ _ HR')).
  pose proof (ti_pc _ (rc_t _ HR') _ _ Ha') as Ht. rewrite Epc, E1, E2 in Ht. done.
Qed.
End concover.
