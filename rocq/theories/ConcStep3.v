(* The steps on a shard, and every step. *)
From stdpp Require Import prelude list functions.
From Verif Require Export SyncSeq ConcStep2.

Section concstep3.
Context {P : Params} (LW : Lawful P) (PI : ptr_ids P = true) {LG : Ledger P}.
Context {budget ghosts cap e : N}.
Notation K := (K P). Notation V := (V P). Notation RS := (RS P).
Notation shard := (shard P). Notation sys := (sys P). Notation pc := (pc P). Notation agent := (agent P).
Notation CInv := (CInv budget ghosts cap e).
Notation keeps_inv := (@keeps_inv P LG budget ghosts cap e).
Implicit Types (s : shard) (k : K) (v : V) (rs : RS) (p : plh) (a b : nat) (l : loc) (j : nat) (y : sys) (x : pc) (ag : agent).

Lemma shard_put y y' j s s' i : shard_at y j = Some s → y_cache y' = with_shard (y_cache y) j s' →
  shard_at y' i = if decide (i = j) then Some s' else shard_at y i.
Proof.
  intros Hs Hc. assert (j < length (sc_shards (y_cache y))) by (by eapply lookup_lt_Some).
  unfold shard_at. rewrite Hc. simpl. case_decide; [subst; by apply list_lookup_insert|by apply list_lookup_insert_ne].
Qed.

(* steps of get *)
Lemma cinv_quiet y y' a ag x' j s s' es : CInv y → y_agents y !! a = Some ag → only_pc y y' a x' →
  shard_at y j = Some s → quiet s s' → y_cache y' = with_shard (y_cache y) j s' →
  (∀ l, y_ph y' l = y_ph y l) → (∀ b, flag y' b = flag y b) → y_log y' = y_log y ++ es →
  (∀ i, i ≠ j → sections i es = []) → explained cap budget s s' (sections j es) → (∀ l, Forall (quiet_ev l) es) →
  part_of (a_pc ag) = None → part_of x' = None →
  (∀ h, h ∈ holds a x' → h ∈ holds a (a_pc ag)) →
  (∀ j, j ∈ pc_shards x' → j ∈ pc_shards (a_pc ag)) → pc_shape x' →
  (∀ i r, its_of s !! i = Some (Some (Resident r)) → ∃ r', its_of s' !! i = Some (Some (Resident r'))) →
  (∀ i t v c, x' = GBump i t v c → i = j ∧ ∃ r, its_of s' !! t = Some (Some (Resident r))) → CInv y'.
Proof.
  intros HC Ha Ho Hs Hqu Hc Hph Hf Hl Hse Hex Hq Hp Hp' Hh Hj Hsh Hres Hb.
  destruct (ci_inv _ _ _ _ _ HC _ _ Hs) as [HI _]. destruct (quiet_abs _ _ HI Hqu) as (_ & Hpd & Hn).
  pose proof (shard_put y y' j s s') as Hput.
  eapply (cinv_shard budget ghosts cap e y y' a ag x' j s s' es); try done.
  - apply (q_inv _ _ Hqu).
  - apply (q_cfg _ _ Hqu).
  - intros h Hh'. left. by apply Hh.
  - intros i p r. by rewrite Hp'.
  - intros b bg p r _ _ _ Hg t q bb. rewrite (q_ph _ _ Hqu). apply Hg.
  - intros b bg i v c r _ _ _ Hr. by eapply Hres.
  - intros l. eapply linv_frame; [by apply (ci_load _ _ _ _ _ HC)|..]; try done.
    + intros b. rewrite (role_only _ _ _ _ _ _ Ho). case_decide; [|done]. subst. by rewrite (role_at _ _ _ _ Ha), !role_none.
    + unfold pend_at. rewrite (Hput _ Hs Hc). case_decide as Hd; [|done]. rewrite Hd, Hs, Hpd. done.
    + unfold next_id. rewrite (Hput _ Hs Hc). case_decide as Hd; [|done]. rewrite Hd, Hs, Hn. done.
Qed.
Lemma step_found y a ag j k c : CInv y → y_agents y !! a = Some ag → a_pc ag = GIn j k c → keeps_inv y (get_found y a j k c).
Proof.
  intros HC Ha Hpc. pose proof (po_shards _ _ (ci_pc _ _ _ _ _ HC _ _ Ha)) as Hj. rewrite Hpc in Hj. apply Forall_cons in Hj as [Hj _].
  destruct (lookup_lt_is_Some_2 _ _ Hj) as [s Hs]. unfold get_found, read_shard. rewrite Hs. cbn.
  destruct (ci_inv _ _ _ _ _ HC _ _ Hs) as [HI Hcfg].
  assert (y_cache y = with_shard (y_cache y) j s) as Hid.
  { unfold with_shard. rewrite list_insert_id by done. by destruct (y_cache y). }
  destruct (search_resident_spec LW s k HI) as (o & -> & Ho). simpl.
  assert (∀ o' x', o' = value_of k (sh_iter s) → part_of x' = None → holds a x' = [(LShard j, MR)] → pc_shards x' = [j] → pc_shape x' →
    (∀ i t v c, x' = GBump i t v c → i = j ∧ ∃ r, its_of s !! t = Some (Some (Resident r))) →
    CInv (logged (goto y a x') a (EvSec j (OCmd (CGet k)) (SO (plain (RVal o')))))) as Hgen.
  { intros o' x' Ho' Hp' Hh' Hj' Hsh Hb'.
    eapply (cinv_quiet y _ a ag x' j s s [(a, EvSec j (OCmd (CGet k)) (SO (plain (RVal o'))))]); try done.
    - eapply only_agents; [eapply only_goto; [done|apply same_pcs_refl]|done].
    - intros b. by eapply flag_via.
    - intros i Hi. unfold sections; simpl. unfold sec_of; simpl. by rewrite decide_False.
    - right. eexists _, _. split; [unfold sections; simpl; unfold sec_of; simpl; by rewrite decide_True|].
      unfold abs, sdoes. split_and!; try done. unfold does. subst o'. done.
    - intros l. by repeat constructor.
    - by rewrite Hpc.
    - by rewrite Hh', Hpc.
    - by rewrite Hj', Hpc.
    - eauto. }
  destruct o as [[i r]|].
  - destruct Ho as (Hi & Hk & Hfk). simpl. apply Hgen.
    + unfold value_of. by rewrite Hfk.
    + by destruct (r_ref r <? MAX_F)%N.
    + by destruct (r_ref r <? MAX_F)%N.
    + by destruct (r_ref r <? MAX_F)%N.
    + by destruct (r_ref r <? MAX_F)%N.
    + intros i' t v c'. destruct (r_ref r <? MAX_F)%N; [|done]. intros [= <- <- <- <-]. eauto.
  - destruct Ho as [_ Hfk]. simpl. apply Hgen; try done. unfold value_of. by rewrite Hfk.
Qed.
Lemma agent_shard y a ag j : CInv y → y_agents y !! a = Some ag → j ∈ pc_shards (a_pc ag) → ∃ s, shard_at y j = Some s.
Proof.
  intros HC Ha Hj. pose proof (po_shards _ _ (ci_pc _ _ _ _ _ HC _ _ Ha)) as H. rewrite Forall_forall in H.
  apply H in Hj. destruct (lookup_lt_is_Some_2 _ _ Hj) as [s Hs]. eauto.
Qed.
Lemma its_hit s : its_of (record_hit s) = its_of s.
Proof. done. Qed.
Lemma its_miss s : its_of (record_miss s) = its_of s.
Proof. done. Qed.
Lemma expl_quiet s s' : Inv s → quiet s s' → explained cap budget s s' [].
Proof.
  intros HI Hq. left. split; [done|]. destruct (quiet_abs _ _ HI Hq) as (A & B & C). unfold same_st, abs; simpl. split_and!; [done| |done].
  intros i. by rewrite B.
Qed.
Lemma step_hit y a ag j v c : CInv y → y_agents y !! a = Some ag → a_pc ag = GHit j v c → keeps_inv y (get_hit y a j v c).
Proof.
  intros HC Ha Hpc. destruct (agent_shard y a ag j HC Ha) as [s Hs]; [rewrite Hpc; by left|].
  unfold get_hit, read_shard. fold (shard_at y j). rewrite Hs. cbn. set (r := match c with CRet => _ | _ => _ end).
  destruct (ci_inv _ _ _ _ _ HC _ _ Hs) as [HI _].
  eapply (cinv_quiet y _ a ag (ADone r) j s (record_hit s) [(a, EvRet r)]); try done.
  - eapply only_agents; [eapply only_goto; [done|apply same_pcs_refl]|done].
  - by apply quiet_hit, quiet_refl.
  - intros b. by eapply flag_via.
  - apply expl_quiet; [done|]. by apply quiet_hit, quiet_refl.
  - intros l. by repeat constructor.
  - by rewrite Hpc.
  - by intros h ?%elem_of_nil.
  - by intros h ?%elem_of_nil.
  - rewrite its_hit. eauto.
Qed.
Lemma step_miss y a ag j k c : CInv y → y_agents y !! a = Some ag → a_pc ag = GMiss j k c → keeps_inv y (get_miss y a j k c).
Proof.
  intros HC Ha Hpc. destruct (agent_shard y a ag j HC Ha) as [s Hs]; [rewrite Hpc; by left|].
  unfold get_miss, read_shard. fold (shard_at y j). rewrite Hs.
  destruct (ci_inv _ _ _ _ _ HC _ _ Hs) as [HI _].
  assert (∀ x' es y', part_of x' = None → holds a x' = [] → (∀ i, i ∈ pc_shards x' → i = j) → pc_shape x' → (∀ j i v c, x' ≠ GBump j i v c) →
    (∀ i, sections i es = []) → (∀ l, Forall (quiet_ev l) es) →
    y_agents y' = y_agents (goto y a x') → y_cache y' = with_shard (y_cache y) j (record_miss s) → y_ph y' = y_ph y → y_log y' = y_log y ++ es → CInv y') as Hgen.
  { intros x' es y' Hp Hh Hj Hsh Hb Hse Hq Hag Hc Hph Hl.
    eapply (cinv_quiet y y' a ag x' j s (record_miss s) es); try done.
    - eapply only_agents; [eapply only_goto; [done|apply same_pcs_refl]|done].
    - by apply quiet_miss, quiet_refl.
    - intros l. by rewrite Hph.
    - intros b. by eapply flag_via.
    - rewrite Hse. apply expl_quiet; [done|]. by apply quiet_miss, quiet_refl.
    - by rewrite Hpc.
    - rewrite Hh. by intros h ?%elem_of_nil.
    - intros i ->%Hj. rewrite Hpc. by left.
    - rewrite its_miss. eauto.
    - intros i t v c' H. by destruct (Hb i t v c'). }
  cbn. destruct c as [|to|wk]; cbn.
  - eapply (Hgen (ADone _) [(a, EvRet _)]); try done; [by intros h ?%elem_of_nil|]. intros l. by repeat constructor.
  - eapply (Hgen (JWant j k (JThread to)) []); try done; [|by rewrite app_nil_r]. by intros i ?%elem_of_list_singleton.
  - eapply (Hgen (JWant j k (JTask wk)) []); try done; [|by rewrite app_nil_r]. by intros i ?%elem_of_list_singleton.
Qed.
Lemma step_bump y a ag j i v c : CInv y → y_agents y !! a = Some ag → a_pc ag = GBump j i v c →
  keeps_inv y (let! s := read_shard y j in let! s := fetch_add s i in Ok (goto (put_shard y j s) a (GHit j v c))).
Proof.
  intros HC Ha Hpc. destruct (po_bump _ _ (ci_pc _ _ _ _ _ HC _ _ Ha) _ _ _ _ Hpc) as (s & r & Hs & Hr).
  destruct (ci_inv _ _ _ _ _ HC _ _ Hs) as [HI _].
  unfold read_shard. fold (shard_at y j). rewrite Hs. cbn. unfold fetch_add. rewrite (entry_at_ok _ _ _ Hr). cbn.
  set (n := ((r_ref r + 1) mod 65536)%N). destruct (quiet_ref LW s i r n HI Hr) as [Hq _].
  set (s' := set_entry s i (Resident (set_key_ref r n))) in *.
  eapply (cinv_quiet y _ a ag (GHit j v c) j s s' []); try done.
  - eapply only_goto; [done|]. intros b. done.
  - intros b. by eapply flag_via.
  - by rewrite app_nil_r.
  - by apply expl_quiet.
  - by rewrite Hpc.
  - by rewrite Hpc.
  - by rewrite Hpc.
  - intros t r0 Ht. unfold s'. rewrite (its_set_entry s i _ _ Hr).
    destruct (decide (t = i)) as [->|Hne]; [|rewrite list_lookup_insert_ne by done; eauto].
    rewrite list_lookup_insert by (by eapply lookup_lt_Some). eauto.
Qed.

(* ---- critical sections ---- *)
Lemma pend_evolves s z r s' id : Inv s → Inv s' → evolves s z r s' → is_Some (pend_of s' id) →
  is_Some (pend_of s id) ∨ (∃ p, r = XNew p ∧ ph_id p = id ∧ id = sh_nph s).
Proof.
  intros HI HI' He [k Hk]. apply pend_Some in Hk as (t & q & Ht & Hid & Hk); [|done].
  destruct (He _ _ _ Ht) as [H|[(H & _ & Hn)|(p & -> & H & _)]]; [left|right|done].
  - exists k. apply pend_Some; [done|]. eauto.
  - exists (p_shared q). split_and!; [done|done|congruence].
Qed.
Lemma sdoes_next cp bu (d d' : sst P) o r : sdoes cp bu d o r d' → (∀ id, r ≠ SNew id) → ss_next d' = ss_next d.
Proof.
  destruct d as [c p n], d' as [c' p' n']. simpl. destruct o, r; try done; try naive_solver.
Qed.
Lemma xo_next s z r s' : xok s z r s' → (∀ q, r ≠ XNew q) → sh_nph s' = sh_nph s.
Proof.
  intros Hx Hr. apply (sdoes_next _ _ _ _ _ _ (xo_does _ _ _ _ Hx)). intros id. destruct r; simpl; try done. by destruct (Hr p).
Qed.
Lemma hgood_evolves s z r s' p : Inv s → evolves s z r s' → hgood s p → (ph_id p < sh_nph s)%N →
  (∀ p', z = XDrop p' → ph_id p' ≠ ph_id p) → hgood s' p.
Proof.
  intros HI He Hg Hlt Hd t q b Ht Hid. destruct (He _ _ _ Ht) as [H|[(_ & _ & Hn)|(p' & Hz & _ & _ & Hq)]].
  - by eapply Hg.
  - rewrite Hid in Hn. lia.
  - destruct (Hd _ Hz). by rewrite <-Hq.
Qed.
Lemma part_id y b bg j p r s : CInv y → y_agents y !! b = Some bg → part_of (a_pc bg) = Some (j, p, r) → r ≠ QNone →
  shard_at y j = Some s → (ph_id p < sh_nph s)%N.
Proof.
  intros HC Hb Hp Hr Hs. destruct (part_alive _ _ _ _ _ _ HC Hb Hp Hr) as [_ Hon]. simpl in Hon.
  apply bool_decide_eq_true in Hon. unfold next_id in Hon. by rewrite Hs in Hon.
Qed.
Lemma part_some x j p r : part_of x = Some (j, p, r) → r ≠ QNone.
Proof. destruct x; simpl; try done; try (destruct ws); try destruct nm; simpl; intros [= <- <- <-]; done. Qed.

(* the loads after a section that started none *)
Definition cut y l s' : lv P :=
  LV (role y l) (flag y) (at_load y l) (waiting_on y l) (is_Some (pend_of s' l.2)) (bool_decide (l.2 < next_id y l.1)%N)
     (ent y l) (dis y l) (putv y l).
Lemma linv_cut y a ag j s z r s' id m : CInv y → y_agents y !! a = Some ag → shard_at y j = Some s → xok s z r s' →
  (∀ p, r = XNew p → ph_id p ≠ id) → (LShard j, m) ∈ holds a (a_pc ag) → role y (j, id) a ≠ QPush → LInv (cut y (j, id) s').
Proof.
  intros HC Ha Hs Hx Hr Hm Hpa. destruct (ci_inv _ _ _ _ _ HC _ _ Hs) as [HI _].
  apply (m_unmap (lview y (j, id)) (is_Some (pend_of s' id))).
  - apply (ci_load _ _ _ _ _ HC).
  - simpl. unfold pend_at. simpl. rewrite Hs. intros Hp.
    destruct (pend_evolves _ _ _ _ _ HI (xo_inv _ _ _ _ Hx) (xo_ph _ _ _ _ Hx) Hp) as [|(p & H1 & H2 & _)]; [done|].
    by destruct (Hr _ H1).
  - intros b Hb. simpl in Hb. destruct (decide (b = a)) as [->|Hne]; [done|].
    by destruct (no_push _ _ _ _ _ id HC Ha Hm b Hne).
Qed.
(* a section that started no load *)
Lemma cinv_sec y y' a ag x' j p s z r s' es m : CInv y → y_agents y !! a = Some ag → only_pc y y' a x' →
  shard_at y j = Some s → xok s z r s' → (∀ q, r ≠ XNew q) →
  y_cache y' = with_shard (y_cache y) j s' → (∀ l, l ≠ pl j p → y_ph y' l = y_ph y l) → (∀ b, flag y' b = flag y b) →
  y_log y' = y_log y ++ (a, EvSec j (op_of z) (res_of r)) :: es → (∀ i, sections i es = []) → (∀ l, Forall (quiet_ev l) es) →
  partakes j p (a_pc ag) → partakes j p x' →
  (LShard j, m) ∈ holds a (a_pc ag) → (∀ l, role y l a ≠ QPush) → m = MW ∨ its_of s' = its_of s →
  (∀ b, b ≠ a → ∀ q, z = XDrop q → role y (pl j q) b = QNone) →
  (∀ h, h ∈ holds a x' → h ∈ holds a (a_pc ag)) →
  (∀ j, j ∈ pc_shards x' → j ∈ pc_shards (a_pc ag)) → pc_shape x' →
  (∀ i p r, part_of x' = Some (i, p, r) → i = j ∧ hgood s' p) →
  (∀ j i v c, x' ≠ GBump j i v c) →
  (LInv (cut y (pl j p) s') → LInv (lview y' (pl j p))) → CInv y'.
Proof.
  intros HC Ha Ho Hs Hx Hr Hc Hph Hf Hl Hse Hq Hab Hab' Hm Hnp Hres Hd Hh Hj Hsh Hpt Hb HL.
  destruct (ci_inv _ _ _ _ _ HC _ _ Hs) as [HI Hcfg]. pose proof Hx as [X1 X2 X3 X4 X5 X6 X7 X8 X9 X10].
  assert (sh_target_hot s = budget ∧ sh_capacity s = cap) as [Hbu Hca] by (unfold cfg in Hcfg; naive_solver).
  pose proof (λ i, shard_put y y' j s s' i Hs Hc) as Hput.
  assert (∀ i, sections i ((a, EvSec j (op_of z) (res_of r)) :: es) = if decide (j = i) then [(op_of z, res_of r)] else []) as Hss.
  { intros i. specialize (Hse i). unfold sections in *. simpl. rewrite Hse, app_nil_r. done. }
  assert (∀ l, Forall (quiet_ev l) ((a, EvSec j (op_of z) (res_of r)) :: es)) as Hqq.
  { intros l. constructor; [|apply Hq]. unfold quiet_ev; simpl. destruct r; simpl; try done. by destruct (Hr p0). }
  assert (sh_nph s' = sh_nph s) as Hn.
  { by apply (xo_next s z r s'). }
  eapply (cinv_shard budget ghosts cap e y y' a ag x' j s s' ((a, EvSec j (op_of z) (res_of r)) :: es)); try done.
  - intros i Hi. by rewrite Hss, decide_False.
  - right. eexists _, _. rewrite Hss, decide_True by done. split; [done|]. by rewrite <-Hbu, <-Hca.
  - intros h Hh'. left. by apply Hh.
  - intros b bg q r0 Hne Hb0 Hp0 Hg. eapply (hgood_evolves s z r s'); try done.
    + eapply (part_id y b bg j q r0 s); try done. by eapply part_some.
    + intros p' Hz Hid. specialize (Hd b Hne p' Hz). rewrite (role_at _ _ _ _ Hb0) in Hd.
      assert (pl j p' = pl j q) as Heq by (unfold pl; congruence). rewrite Heq in Hd. erewrite role_own in Hd by done.
      by eapply part_some.
  - intros b bg i v c r0 Hne Hb0 Hp0 Hi. destruct Hres as [-> | Hres]; [|rewrite Hres; eauto].
    by destruct (no_bump _ _ _ _ b bg i v c HC Ha Hm Hne Hb0).
  - intros i t v c H. by destruct (Hb i t v c).
  - intros l. destruct (decide (l = pl j p)) as [->|Hne].
    { apply HL. by eapply linv_cut; try done; intros q Hq'; destruct (Hr q). }
    assert (∀ b, role y' l b = role y l b) as Hro.
    { intros b. rewrite (role_only _ _ _ _ _ _ Ho). case_decide; [|done]. subst. rewrite (role_at _ _ _ _ Ha).
      by rewrite !(partakes_other j p) by done. }
    destruct (decide (l.1 = j)) as [<-|Hlj].
    + destruct l as [j id]. simpl in *.
      assert (LInv (cut y (j, id) s')) as HLc by (by eapply linv_cut; try done; intros q Hq'; destruct (Hr q)).
      eapply linv_ext; [exact HLc|..]; simpl; try done.
      * unfold at_load. by rewrite Hph.
      * unfold waiting_on. by rewrite Hph.
      * unfold pend_at; simpl. by rewrite Hput, decide_True.
      * unfold next_id; simpl. by rewrite Hput, decide_True, Hs, Hn.
      * intros b. by eapply ent_quiet.
      * intros b. by eapply dis_mono.
      * intros b. by eapply put_quiet.
    + eapply linv_frame; [by apply (ci_load _ _ _ _ _ HC)|..]; try done.
      * by apply Hph.
      * unfold pend_at. by rewrite Hput, decide_False.
      * unfold next_id. by rewrite Hput, decide_False.
Qed.

Lemma section_run y a j s z : CInv y → shard_at y j = Some s → sync_sect z → (∀ p, handle_of z = Some p → hgood s p) →
  wp (cfails y) (section y a j z) (λ '(y1, r), ∃ s', xexec s z = Ok (s', r) ∧ xok s z r s' ∧
    y1 = logged (with_cache y (with_shard (y_cache y) j s')) a (EvSec j (op_of z) (res_of r))).
Proof.
  intros HC Hs Hz Hp. destruct (ci_inv _ _ _ _ _ HC _ _ Hs) as [HI _].
  pose proof (xexec_spec LW PI s z HI Hz Hp) as H. unfold section, on_shard. fold (shard_at y j). rewrite Hs. cbn.
  destruct (xexec s z) as [[s' r]|f]; cbn in *; [eauto|]. exists j, s, z. eauto.
Qed.
Lemma reads_same s m s' o : reads m = true → (∀ k, m ≠ CGet k) → exec s m = Ok (s', o) → s' = s.
Proof.
  destruct m; try done; intros _ Hg; try by destruct (Hg k); simpl.
  - cbn. destruct (u_contains s k); simpl; [|done]. by intros [= <- _].
  - cbn. destruct (u_peek s k); simpl; [|done]. by intros [= <- _].
Qed.
Lemma not_push y a ag : y_agents y !! a = Some ag → (∀ j p r, part_of (a_pc ag) = Some (j, p, r) → r ≠ QPush) → ∀ l, role y l a ≠ QPush.
Proof.
  intros Ha Hp l. rewrite (role_at _ _ _ _ Ha). unfold role_pc. destruct (part_of _) as [[[j p] r]|]; [|done].
  case_decide; [|done]. by eapply Hp.
Qed.
Lemma xo_cmd s m r s' : xok s (XCmd m) r s' → ∃ o, r = XO o.
Proof. intros Hx. pose proof (xo_does _ _ _ _ Hx) as H. unfold abs in H. simpl in H. destruct r; try done. eauto. Qed.

(* a section of an agent without a part *)
Lemma cinv_cmd y y' a ag x' j s z r s' es m : CInv y → y_agents y !! a = Some ag → only_pc y y' a x' →
  shard_at y j = Some s → xok s z r s' → (∀ q, r ≠ XNew q) →
  y_cache y' = with_shard (y_cache y) j s' → (∀ l, y_ph y' l = y_ph y l) → (∀ b, flag y' b = flag y b) →
  y_log y' = y_log y ++ (a, EvSec j (op_of z) (res_of r)) :: es → (∀ i, sections i es = []) → (∀ l, Forall (quiet_ev l) es) →
  part_of (a_pc ag) = None → part_of x' = None →
  (LShard j, m) ∈ holds a (a_pc ag) → m = MW ∨ its_of s' = its_of s → (∀ q, z ≠ XDrop q) →
  (∀ h, h ∈ holds a x' → h ∈ holds a (a_pc ag)) →
  (∀ j, j ∈ pc_shards x' → j ∈ pc_shards (a_pc ag)) → pc_shape x' →
  (∀ j i v c, x' ≠ GBump j i v c) → CInv y'.
Proof.
  intros HC Ha Ho Hs Hx Hr Hc Hph Hf Hl Hse Hq Hp Hp' Hm Hres Hz Hh Hj Hsh Hb.
  eapply (cinv_sec y y' a ag x' j (Plh 0 0 0) s z r s' es m); try done.
  - unfold partakes. by rewrite Hp.
  - unfold partakes. by rewrite Hp'.
  - eapply not_push; [done|]. by rewrite Hp.
  - intros b _ q Hq'. by destruct (Hz q).
  - by rewrite Hp'.
  - intros HL. eapply linv_ext; [exact HL|..]; simpl; try done.
    + intros b. rewrite (role_only _ _ _ _ _ _ Ho). case_decide; [|done]. subst. by rewrite (role_at _ _ _ _ Ha), !role_none.
    + unfold at_load. by rewrite Hph.
    + unfold waiting_on. by rewrite Hph.
    + unfold pend_at; simpl. by rewrite (shard_put y y' j s s' j Hs Hc), decide_True.
    + unfold next_id; simpl. rewrite (shard_put y y' j s s' j Hs Hc), decide_True, Hs by done.
      by rewrite (xo_next s z r s').
    + intros b. eapply ent_quiet; [done|]. constructor; [|apply Hq]. unfold quiet_ev; simpl. destruct r; simpl; try done. by destruct (Hr p).
    + intros b. by eapply dis_mono.
    + intros v. eapply put_quiet; [done|]. constructor; [|apply Hq]. unfold quiet_ev; simpl. destruct r; simpl; try done. by destruct (Hr p).
Qed.
Lemma step_cmd y a ag j m : CInv y → y_agents y !! a = Some ag → a_pc ag = PIn j m →
  keeps_inv y (let! (y, r) := section y a j (XCmd m) in match r with XO o => Ok (finish y a (RetOut o)) | _ => Fail Panic end).
Proof.
  intros HC Ha Hpc. destruct (agent_shard y a ag j HC Ha) as [s Hs]; [rewrite Hpc; by left|].
  pose proof (po_shape _ _ (ci_pc _ _ _ _ _ HC _ _ Ha)) as Hsh. rewrite Hpc in Hsh. destruct Hsh as [Hm Hg].
  apply wp_bind. eapply wp_mono; [by apply (section_run y a j s)|]. intros [y1 r] (s' & Hx & Hok & ->).
  destruct (xo_cmd _ _ _ _ Hok) as [o ->]. cbn.
  eapply (cinv_cmd y _ a ag (ADone (RetOut o)) j s (XCmd m) (XO o) s' [(a, EvRet (RetOut o))] (if reads m then MR else MW)); try done.
  - eapply only_agents; [eapply only_goto; [done|apply same_pcs_refl]|done].
  - intros b. by eapply flag_via.
  - simpl. by rewrite <-app_assoc.
  - intros l. by repeat constructor.
  - by rewrite Hpc.
  - rewrite Hpc. by left.
  - destruct (reads m) eqn:E; [right|by left]. cbn in Hx. destruct (exec s m) as [[s0 o0]|] eqn:Ee; [|done]. cbn in Hx.
    injection Hx as <- <-. by rewrite (reads_same s m s0 o0).
  - by intros h ?%elem_of_nil.
  - by intros h ?%elem_of_nil.
Qed.
Lemma step_all y a ag j m js : CInv y → y_agents y !! a = Some ag → a_pc ag = PAllIn m j js →
  keeps_inv y (let! (y, r) := section y a j (XCmd m) in Ok (goto y a (PAll m js))).
Proof.
  intros HC Ha Hpc. destruct (agent_shard y a ag j HC Ha) as [s Hs]; [rewrite Hpc; by left|].
  pose proof (po_shape _ _ (ci_pc _ _ _ _ _ HC _ _ Ha)) as Hsh. rewrite Hpc in Hsh. pose proof Hsh as [Hm Hg].
  apply wp_bind. eapply wp_mono; [by apply (section_run y a j s)|]. intros [y1 r] (s' & Hx & Hok & ->).
  destruct (xo_cmd _ _ _ _ Hok) as [o ->]. cbn.
  eapply (cinv_cmd y _ a ag (PAll m js) j s (XCmd m) (XO o) s' [] MW); try done.
  - eapply only_agents; [eapply only_goto; [done|apply same_pcs_refl]|done].
  - intros b. by eapply flag_via.
  - by rewrite Hpc.
  - rewrite Hpc. by left.
  - by left.
  - by intros h ?%elem_of_nil.
  - intros i Hi. rewrite Hpc. by right.
Qed.
End concstep3.
