(* The steps that start, fill and end a load, and every step. *)
From stdpp Require Import prelude list functions.
From Verif Require Export ConcStep3.

Section concstep4.
Context {P : Params} (LW : Lawful P) (PI : ptr_ids P = true) {LG : Ledger P}.
Context {budget ghosts cap e : N}.
Notation K := (K P). Notation V := (V P). Notation RS := (RS P).
Notation shard := (shard P). Notation sys := (sys P). Notation pc := (pc P). Notation agent := (agent P).
Notation CInv := (CInv budget ghosts cap e).
Notation keeps_inv := (@keeps_inv P LG budget ghosts cap e).
Implicit Types (s : shard) (k : K) (v : V) (rs : RS) (p : plh) (a b : nat) (l : loc) (j : nat) (y : sys) (x : pc) (ag : agent).

Lemma ent_more y y' l b es : y_log y' = y_log y ++ es →
  ent y' l b ↔ ent y l b ∨ (∃ k, (b, EvSec l.1 (OJoin k) (SNew l.2)) ∈ es) ∨ (∃ c, (c, EvGive l b) ∈ es).
Proof. intros Hl. unfold ent. rewrite Hl. setoid_rewrite elem_of_app. naive_solver. Qed.
Lemma put_more y y' l v es : y_log y' = y_log y ++ es → putv y' l v ↔ putv y l v ∨ ∃ b, (b, EvPut l v) ∈ es.
Proof. intros Hl. unfold putv. rewrite Hl. setoid_rewrite elem_of_app. naive_solver. Qed.

(* a load is started *)
Lemma cinv_new y y' a ag x' j s k p s' es : CInv y → y_agents y !! a = Some ag → only_pc y y' a x' →
  shard_at y j = Some s → xok s (XJoin k) (XNew p) s' →
  y_cache y' = with_shard (y_cache y) j s' → y_ph y' = y_ph y → (∀ b, flag y' b = flag y b) →
  y_log y' = y_log y ++ (a, EvSec j (OJoin k) (SNew (ph_id p))) :: es → (∀ i, sections i es = []) → (∀ l, Forall (quiet_ev l) es) →
  part_of (a_pc ag) = None → part_of x' = Some (j, p, QGuard) → (LShard j, MW) ∈ holds a (a_pc ag) →
  (∀ h, h ∈ holds a x' → h ∈ holds a (a_pc ag)) →
  (∀ j, j ∈ pc_shards x' → j ∈ pc_shards (a_pc ag)) → pc_shape x' →
  (∀ j i v c, x' ≠ GBump j i v c) → CInv y'.
Proof.
  intros HC Ha Ho Hs Hx Hc Hph Hf Hl Hse Hq Hp Hp' Hm Hh Hj Hsh Hb.
  destruct (ci_inv _ _ _ _ _ HC _ _ Hs) as [HI Hcfg]. pose proof Hx as [X1 X2 X3 X4 X5 X6 X7 X8 X9 X10].
  assert (sh_target_hot s = budget ∧ sh_capacity s = cap) as [Hbu Hca] by (unfold cfg in Hcfg; naive_solver).
  pose proof (λ i, shard_put y y' j s s' i Hs Hc) as Hput.
  destruct (X6 p eq_refl) as (Hid & Hgp & (q & Hq1 & Hq2)).
  assert (sh_nph s' = (sh_nph s + 1)%N) as Hn.
  { unfold abs in X3. simpl in X3. naive_solver. }
  assert (∀ i, sections i ((a, EvSec j (OJoin k) (SNew (ph_id p))) :: es) = if decide (j = i) then [(OJoin k, SNew (ph_id p))] else []) as Hss.
  { intros i. specialize (Hse i). unfold sections in *. simpl. rewrite Hse, app_nil_r. done. }
  assert (∀ l, role y l a = QNone) as Hra. { intros l. by rewrite (role_at _ _ _ _ Ha), role_none. }
  eapply (cinv_shard budget ghosts cap e y y' a ag x' j s s' ((a, EvSec j (OJoin k) (SNew (ph_id p))) :: es)); try done.
  - intros i Hi. by rewrite Hss, decide_False.
  - right. eexists _, _. rewrite Hss, decide_True by done. split; [done|]. by rewrite <-Hbu, <-Hca.
  - intros h Hh'. left. by apply Hh.
  - intros i p0 r0. rewrite Hp'. by intros [= <- <- <-].
  - intros b bg q0 r0 Hne Hb0 Hp0 Hg. eapply (hgood_evolves s (XJoin k) (XNew p) s'); try done.
    eapply (part_id y b bg j q0 r0 s); try done. by eapply part_some.
  - intros b bg i v c r0 Hne Hb0 Hp0 Hi. by destruct (no_bump _ _ _ _ b bg i v c HC Ha Hm Hne Hb0).
  - intros i t v c H. by destruct (Hb i t v c).
  - intros l. destruct (decide (l = pl j p)) as [->|Hne].
    + pose proof (ci_load _ _ _ _ _ HC (pl j p)) as HL.
      assert (v_on (lview y (pl j p)) = false) as Hoff.
      { simpl. apply bool_decide_eq_false. unfold next_id. rewrite Hs, Hid. lia. }
      eapply linv_ext; [apply (m_alloc _ a HL Hoff)|..]; simpl; try done.
      * intros b. rewrite (role_only _ _ _ _ _ _ Ho), fn_ins. case_decide; [|done]. by erewrite role_own.
      * unfold at_load. by rewrite Hph.
      * unfold waiting_on. by rewrite Hph.
      * unfold pend_at; simpl. rewrite Hput, decide_True by done. split; [done|intros _].
        exists (p_key q). apply pend_Some; [done|]. exists (ph_idx p), q. by rewrite Hq2.
      * unfold next_id; simpl. rewrite Hput, decide_True by done. rewrite Hid, Hn. apply bool_decide_eq_true. lia.
      * intros b. rewrite (ent_more y y' _ _ _ Hl). specialize (Hq (pl j p)). rewrite Forall_forall in Hq. split.
        -- intros [He|[[k' [H|H]%elem_of_cons]|[c [H|H]%elem_of_cons]]]; [by right|left; by injection H| |done|].
           ++ apply Hq in H. done.
           ++ apply Hq in H. done.
        -- intros [->|H]; [right; left; exists k; by left|by left].
      * intros b. by eapply dis_mono.
      * intros v. rewrite (put_more y y' _ _ _ Hl). specialize (Hq (pl j p)). rewrite Forall_forall in Hq. split; [|by left].
        intros [|[b [H|H]%elem_of_cons]]; [done|done|by apply Hq in H].
    + assert (∀ b, role y' l b = role y l b) as Hro.
      { intros b. rewrite (role_only _ _ _ _ _ _ Ho). case_decide; [|done]. subst b. rewrite Hra. by eapply role_other. }
      assert (Forall (quiet_ev l) ((a, EvSec j (OJoin k) (SNew (ph_id p))) :: es)) as Hqq.
      { constructor; [|apply Hq]. unfold quiet_ev; simpl. intros Heq. apply Hne. by rewrite <-Heq. }
      destruct (decide (l.1 = j)) as [<-|Hlj].
      * destruct l as [j id]. simpl in *. assert (id ≠ sh_nph s) as Hid'. { intros ->. destruct Hne. unfold pl. by rewrite Hid. }
        assert (LInv (cut y (j, id) s')) as HLc.
        { eapply linv_cut; try done; [|by rewrite Hra]. intros q0 [= <-]. by rewrite Hid. }
        eapply linv_ext; [exact HLc|..]; simpl; try done.
        -- unfold at_load. by rewrite Hph.
        -- unfold waiting_on. by rewrite Hph.
        -- unfold pend_at; simpl. by rewrite Hput, decide_True.
        -- unfold next_id; simpl. rewrite Hput, decide_True, Hs, Hn by done. apply bool_decide_ext. lia.
        -- intros b. by eapply ent_quiet.
        -- intros b. by eapply dis_mono.
        -- intros b. by eapply put_quiet.
      * eapply linv_frame; [by apply (ci_load _ _ _ _ _ HC)|..]; try done.
        -- by rewrite Hph.
        -- unfold pend_at. by rewrite Hput, decide_False.
        -- unfold next_id. by rewrite Hput, decide_False.
Qed.
(* join on the shard *)
Lemma step_join y a ag j k md dbg : CInv y → y_agents y !! a = Some ag → a_pc ag = JIn j k md →
  keeps_inv y (let! (y, r) := section y a j (XJoin k) in
      match r with
      | XHit v => Ok (finish y a (RetVal v None))
      | XNew p => Ok (start_loading dbg y a j p SNewLoad)
      | XWait p => Ok (goto y a (JPush j p md))
      | _ => Fail Panic
      end).
Proof.
  intros HC Ha Hpc. destruct (agent_shard y a ag j HC Ha) as [s Hs]; [rewrite Hpc; by left|].
  destruct (ci_inv _ _ _ _ _ HC _ _ Hs) as [HI Hcfg].
  apply wp_bind. eapply wp_mono; [eapply section_run; done|]. intros [y1 r] (s' & Hx & Hok & ->).
  pose proof (xo_does _ _ _ _ Hok) as Hd. unfold abs in Hd. simpl in Hd.
  assert (part_of (a_pc ag) = None) as Hp by (by rewrite Hpc).
  assert ((LShard j, MW) ∈ holds a (a_pc ag)) as Hm by (rewrite Hpc; by left).
  destruct r as [o|v|p|p|v|]; try done.
  - cbn. eapply (cinv_cmd y _ a ag (ADone (RetVal v None)) j s (XJoin k) (XHit v) s' [(a, EvRet (RetVal v None))] MW); try done.
    + eapply only_agents; [eapply only_goto; [done|apply same_pcs_refl]|done].
    + intros b. by eapply flag_via.
    + simpl. by rewrite <-app_assoc.
    + intros l. by repeat constructor.
    + by left.
    + by intros h ?%elem_of_nil.
    + by intros h ?%elem_of_nil.
  - cbn. destruct (xo_wait _ _ _ _ Hok p eq_refl) as (q & Hq1 & Hq2).
    assert (is_Some (pend_of s' (ph_id p))) as Hpd.
    { exists (p_key q). apply pend_Some; [apply Hok|]. exists (ph_idx p), q. by rewrite Hq2. }
    set (y' := goto _ _ _). assert (only_pc y y' a (JPush j p md)) as Ho.
    { eapply only_agents; [eapply only_goto; [done|apply same_pcs_refl]|done]. }
    assert (y_cache y' = with_shard (y_cache y) j s') as Hc by done.
    eapply (cinv_sec y y' a ag (JPush j p md) j p s (XJoin k) (XWait p) s' [] MW); try done.
    + intros b. by eapply flag_via.
    + unfold partakes. by rewrite Hp.
    + eapply not_push; [done|]. by rewrite Hp.
    + by left.
    + by rewrite Hpc.
    + by rewrite Hpc.
    + intros i p0 r0 [= <- <- <-]. split; [done|]. intros t q0 b0 Ht Hid.
      assert (t = ph_idx p) as ->. { eapply (ph_id_inj s'); [apply Hok|done|done|]. by rewrite Hq2. }
      rewrite Hq1 in Ht. by injection Ht as <- <-.
    + intros HL.
      assert (v_on (cut y (pl j p) s') = true) as Hon.
      { destruct (v_on (cut y (pl j p) s')) eqn:E; [done|]. destruct (l_off _ HL E) as (_ & _ & Hm' & _). by destruct Hm'. }
      assert (role y (pl j p) a = QNone) as Hra by (by rewrite (role_at _ _ _ _ Ha), role_none).
      eapply linv_ext; [apply (m_role _ a QPush HL Hon)|..]; simpl; rewrite ?Hra; try done.
      * intros Ht. destruct (l_term _ HL Ht) as (_ & H & _). by destruct H.
      * intros b. rewrite (role_only _ _ _ _ _ _ Ho), fn_ins. case_decide; [|done]. by erewrite role_own.
      * intros b t _. by eapply flag_via.
      * unfold pend_at; simpl. by rewrite (shard_put y y' j s s' j Hs Hc), decide_True.
      * unfold next_id; simpl. rewrite (shard_put y y' j s s' j Hs Hc), decide_True, Hs by done. by rewrite (xo_next s (XJoin k) (XWait p) s').
      * intros b. eapply ent_quiet; [done|]. by repeat constructor.
      * intros b. by eapply dis_mono.
      * intros b. eapply put_quiet; [done|]. by repeat constructor.
  - cbn. unfold start_loading, start_done. destruct dbg.
    + eapply (cinv_new y _ a ag (SWant j p SNewLoad) j s k p s' []); try done.
      * eapply only_agents; [eapply only_goto; [done|apply same_pcs_refl]|done].
      * intros b. by eapply flag_via.
      * by rewrite Hpc.
      * by rewrite Hpc.
    + eapply (cinv_new y _ a ag (AGuard j p) j s k p s' [(a, EvGuard (pl j p))]); try done.
      * eapply only_agents; [eapply only_goto; [done|apply same_pcs_refl]|done].
      * intros b. by eapply flag_via.
      * simpl. by rewrite <-app_assoc.
      * intros l. by repeat constructor.
      * by intros h ?%elem_of_nil.
      * by rewrite Hpc.
Qed.
(* the value is stored *)
Lemma step_fill y a ag j p rs v wl ref : CInv y → y_agents y !! a = Some ag → a_pc ag = FillIn j p rs v wl ref →
  keeps_inv y (let! (y, r) := section y a j (XFill rs p ref v wl) in
      match r with
      | XO o => Ok (finish y a (RetOut o))
      | XStale v => Ok (finish y a (RetStale v))
      | _ => Fail Panic
      end).
Proof.
  intros HC Ha Hpc. destruct (agent_shard y a ag j HC Ha) as [s Hs]; [rewrite Hpc; by left|].
  destruct (ci_inv _ _ _ _ _ HC _ _ Hs) as [HI Hcfg].
  assert (part_of (a_pc ag) = Some (j, p, QFill v)) as Hp by (by rewrite Hpc).
  destruct (part_linv _ _ _ _ _ _ HC Ha Hp) as [HL0 Hra].
  pose proof (po_handle _ _ (ci_pc _ _ _ _ _ HC _ _ Ha) j p _ s Hp Hs) as Hg.
  apply wp_bind. eapply wp_mono; [eapply section_run; [done|done|done|done|done|by intros p0 [= <-]]|]. intros [y1 r] (s' & Hx & Hok & ->).
  pose proof (xo_does _ _ _ _ Hok) as Hd. unfold abs in Hd. simpl in Hd.
  assert ((LShard j, MW) ∈ holds a (a_pc ag)) as Hm by (rewrite Hpc; by left).
  assert (∀ (rt : ret P), (∀ q, r ≠ XNew q) → pend_of s' (ph_id p) = None →
    CInv (finish (logged (with_cache y (with_shard (y_cache y) j s')) a (EvSec j (op_of (XFill rs p ref v wl)) (res_of r))) a rt)) as Hgen.
  { intros rt Hr Hno. set (y' := finish _ _ _). assert (only_pc y y' a (ADone rt)) as Ho.
    { eapply only_agents; [eapply only_goto; [done|apply same_pcs_refl]|done]. }
    assert (y_cache y' = with_shard (y_cache y) j s') as Hc by done.
    assert (∀ l, quiet_ev l (a, EvSec j (op_of (XFill rs p ref v wl)) (res_of r))) as Hqe.
    { intros l. unfold quiet_ev; simpl. destruct r; simpl; try done. }
    eapply (cinv_sec y y' a ag (ADone rt) j p s (XFill rs p ref v wl) r s' [(a, EvRet rt)] MW); try done.
    - intros b. by eapply flag_via.
    - simpl. by rewrite <-app_assoc.
    - intros l. by repeat constructor.
    - unfold partakes. by rewrite Hp.
    - eapply not_push; [done|]. rewrite Hp. by intros ? ? ? [= <- <- <-].
    - by left.
    - by intros h ?%elem_of_nil.
    - by intros h ?%elem_of_nil.
    - intros HL. eapply linv_ext; [apply (m_fill _ a v HL)|..]; simpl; rewrite ?Hra; try done.
      + rewrite Hno. by intros [? ?].
      + intros b. rewrite (role_only _ _ _ _ _ _ Ho), fn_ins. done.
      + intros b t _. by eapply flag_via.
      + unfold pend_at; simpl. by rewrite (shard_put y y' j s s' j Hs Hc), decide_True.
      + unfold next_id; simpl. rewrite (shard_put y y' j s s' j Hs Hc), decide_True, Hs by done. by rewrite (xo_next s _ r s' Hok).
      + intros b. eapply ent_quiet; [simpl; by rewrite <-app_assoc|]. constructor; [by apply Hqe|by repeat constructor].
      + intros b. eapply dis_mono; simpl; by rewrite <-app_assoc.
      + intros b. eapply put_quiet; [simpl; by rewrite <-app_assoc|]. constructor; [by apply Hqe|by repeat constructor]. }
  destruct r as [o|v'|q|q|v'|]; try done.
  - cbn. apply Hgen; [done|]. destruct Hd as (k & es & rs' & _ & _ & _ & H & _). rewrite H. unfold pset. by rewrite decide_True.
  - cbn. apply Hgen; [done|]. destruct Hd as (H1 & _ & _ & H2 & _). by rewrite H2.
Qed.
(* the guard is dropped, with nobody waiting *)
Lemma step_end y a ag j p : CInv y → y_agents y !! a = Some ag → a_pc ag = DIn j p → waiting_on y (pl j p) = [] →
  keeps_inv y (let! (y, _) := section (with_ph y (pl j p) (PSt [] Terminated)) a j (XDrop p) in
          Ok (finish (logged y a (EvEnd (pl j p))) a RetDrop)).
Proof.
  intros HC Ha Hpc Hw. destruct (agent_shard y a ag j HC Ha) as [s Hs]; [rewrite Hpc; by left|].
  destruct (ci_inv _ _ _ _ _ HC _ _ Hs) as [HI Hcfg].
  assert (part_of (a_pc ag) = Some (j, p, QGuard)) as Hp by (by rewrite Hpc).
  destruct (part_linv _ _ _ _ _ _ HC Ha Hp) as [HL0 Hra].
  pose proof (po_handle _ _ (ci_pc _ _ _ _ _ HC _ _ Ha) j p _ s Hp Hs) as Hg.
  assert ((LShard j, MW) ∈ holds a (a_pc ag)) as Hm by (rewrite Hpc; by left).
  unfold ConcStep.keeps_inv, section, on_shard. cbn [with_ph y_cache]. fold (shard_at y j). rewrite Hs. cbn [unwrap rbind].
  pose proof (xexec_spec LW PI s (XDrop p) HI I ltac:(by intros p0 [= <-])) as H.
  destruct (xexec s (XDrop p)) as [[s' r]|f] eqn:Hx; cbn [rbind wp] in *; [|by destruct f].
  pose proof (xo_does _ _ _ _ H) as Hd. unfold abs in Hd. simpl in Hd. destruct r; try done.
  destruct Hd as (_ & Hpd & _).
  assert (pend_of s' (ph_id p) = None) as Hno by (rewrite Hpd; unfold pset; by rewrite decide_True).
  set (y' := finish _ _ _). assert (only_pc y y' a (ADone RetDrop)) as Ho.
  { eapply only_agents; [eapply only_goto; [done|apply same_pcs_refl]|done]. }
  assert (y_cache y' = with_shard (y_cache y) j s') as Hc by done.
  assert (∀ b, role y (pl j p) b ≠ QPush) as Hnp.
  { intros b. destruct (decide (b = a)) as [->|Hne]; [by rewrite Hra|]. exact (no_push y a ag j MW (ph_id p) HC Ha Hm b Hne). }
  pose proof (m_term _ a HL0 Hra Hw Hnp) as HT.
  assert (y_log y' = y_log y ++ [(a, EvSec j (ODrop (ph_id p)) SGone); (a, EvEnd (pl j p)); (a, EvRet RetDrop)]) as Hlg.
  { simpl. by rewrite <-!app_assoc. }
  eapply (cinv_sec y y' a ag (ADone RetDrop) j p s (XDrop p) XGone s' [(a, EvEnd (pl j p)); (a, EvRet RetDrop)] MW); try done.
  - intros l Hne. simpl. by rewrite fn_lookup_insert_ne.
  - intros b. by eapply flag_via.
  - intros l. by repeat constructor.
  - unfold partakes. by rewrite Hp.
  - eapply not_push; [done|]. rewrite Hp. by intros ? ? ? [= <- <- <-].
  - by left.
  - intros b Hne q [= <-]. destruct (l_term _ HT eq_refl) as (_ & _ & Hr). specialize (Hr b). simpl in Hr.
    rewrite fn_ins, decide_False in Hr by done. done.
  - by intros h ?%elem_of_nil.
  - by intros h ?%elem_of_nil.
  - intros _. eapply linv_ext; [exact HT|..]; simpl; try done.
    + intros b. rewrite (role_only _ _ _ _ _ _ Ho), fn_ins. done.
    + intros b t _. by eapply flag_via.
    + unfold at_load; simpl. by rewrite fn_lookup_insert.
    + unfold waiting_on; simpl. by rewrite fn_lookup_insert.
    + unfold pend_at; simpl. rewrite (shard_put y y' j s s' j Hs Hc), decide_True by done. rewrite Hno. split; [by intros [? ?]|done].
    + unfold next_id; simpl. rewrite (shard_put y y' j s s' j Hs Hc), decide_True, Hs by done. by rewrite (xo_next s _ _ s' H).
    + intros b. eapply ent_quiet; [exact Hlg|]. by repeat constructor.
    + intros b [->|Hb]; [|by eapply dis_mono]. right. right. rewrite Hlg. apply elem_of_app. right. right. by left.
    + intros b. eapply put_quiet; [exact Hlg|]. by repeat constructor.
Qed.

(* ---- every step ---- *)
Lemma step_woken y a ag y' x' j p t : CInv y → y_agents y !! a = Some ag → part_of (a_pc ag) = Some (j, p, QWait t) → a_flag ag = true →
  x' = JRe j p → pc_shards (a_pc ag) = [j] → y' = goto y a x' ∨ y' = goto (with_agent y a (set_flag false)) a x' → CInv y'.
Proof.
  intros HC Ha Hp Hfl -> Hj Hy. destruct (part_linv _ _ _ _ _ _ HC Ha Hp) as [HL Hra].
  destruct (part_alive _ _ _ _ _ _ HC Ha Hp ltac:(done)) as [Ht Hon].
  eapply (cinv_role y y' a ag (JRe j p) j p (QWait t) QWoke []); try done.
  - destruct Hy as [-> | ->]; (eapply only_goto; [done|]); [apply same_pcs_refl|apply same_pcs_agent; [apply same_pcs_refl|done]].
  - by destruct Hy as [-> | ->].
  - by destruct Hy as [-> | ->].
  - intros b Hb. destruct Hy as [-> | ->]; rewrite flag_goto; [done|]. by rewrite (flag_set _ _ _ _ _ Ha), decide_False.
  - by right.
  - rewrite app_nil_r. by destruct Hy as [-> | ->].
  - by left.
  - by intros h ?%elem_of_nil.
  - by rewrite Hj.
  - apply m_role; try done; simpl; rewrite ?Hra; try done.
    + intros _. rewrite (flag_at _ _ _ Ha). by rewrite Hfl.
    + intros _ _. by rewrite (flag_at _ _ _ Ha).
Qed.
Ltac easy_goto Hpc := eapply step_goto; [eassumption|eassumption|by rewrite Hpc|..];
  [by (rewrite Hpc; set_solver)|by (rewrite Hpc; set_solver)|try done|try done].
Lemma step_token y a b ag bg x' f : CInv y → y_agents y !! a = Some ag →
  part_of x' = part_of (a_pc ag) →
  (∀ h, h ∈ holds a x' → h ∈ holds a (a_pc ag)) → (∀ j, j ∈ pc_shards x' → j ∈ pc_shards (a_pc ag)) → pc_shape x' →
  (∀ j i v c, x' ≠ GBump j i v c) → f bg = f bg → (∀ g, a_pc (f g) = a_pc g) → (∀ g, a_flag (f g) = a_flag g) →
  CInv (goto (with_agent y b f) a x').
Proof.
  intros HC Ha Hp Hh Hj Hs Hb _ Hf1 Hf2. eapply (cinv_stutter y _ a ag x' []); try done.
  - eapply only_goto; [done|]. apply same_pcs_agent; [apply same_pcs_refl|done].
  - intros c. rewrite flag_goto. by apply flag_agent.
  - by rewrite app_nil_r.
  - intros h Hh'. left. by apply Hh.
Qed.
Lemma act_keeps dbg y a ag r : CInv y → y_agents y !! a = Some ag → wants a (a_pc ag) = None → act dbg y a ag = Some r →
  keeps_inv y r.
Proof.
  intros HC Ha Hw. unfold act. pose proof (po_shape _ _ (ci_pc _ _ _ _ _ HC _ _ Ha)) as Hsh.
  destruct (a_pc ag) eqn:Hpc; try done.
  - (* PIn *) intros [= <-]. eapply step_cmd; done.
  - (* PAll *) destruct js; [|done]. intros [= <-]. cbn. eapply step_finish; [done|done|by rewrite Hpc].
  - (* PAllIn *) intros [= <-]. eapply step_all; done.
  - (* GIn *) intros [= <-]. eapply step_found; done.
  - (* GBump *) intros [= <-]. eapply step_bump; done.
  - (* GHit *) intros [= <-]. eapply step_hit; done.
  - (* GMiss *) intros [= <-]. eapply step_miss; done.
  - (* JIn *) intros [= <-]. eapply step_join; done.
  - (* SIn *) intros [= <-]. destruct (step_asserted y a ag j p sm HC Ha Hpc) as [-> H]. exact H.
  - (* JPushIn *) intros [= <-]. eapply step_push; done.
  - (* JStart *) intros [= <-]. cbn. easy_goto Hpc.
  - (* JPark *) destruct (a_token ag); [|done]. intros [= <-]. cbn.
    eapply (step_token _ _ _ _ ag); try done; by rewrite ?Hpc.
  - (* JChk *) intros [= <-]. cbn. destruct (a_flag ag) eqn:Hf.
    + eapply (step_woken y a ag _ (JRe j p) j p false); try done; rewrite ?Hpc; try done. by left.
    + destruct tm as [[[st to] d]|]; easy_goto Hpc.
  - (* JElapsed *) intros [= <-]. cbn. destruct (_ <? to)%N; easy_goto Hpc.
  - (* JTimeIn *) intros [= <-]. destruct (a_flag ag) eqn:Hf.
    + eapply (step_woken y a ag _ (JRe j p) j p false); try done; rewrite ?Hpc; try done. by left.
    + eapply step_leave; try done; rewrite ?Hpc; [done|by left].
  - (* JReIn *) intros [= <-].
    assert (part_of (a_pc ag) = Some (j, p, QWoke)) as Hp by (by rewrite Hpc).
    destruct (part_alive _ _ _ _ _ _ HC Ha Hp ltac:(done)) as [Ht Hon].
    destruct (at_load y (pl j p)) as [|v|] eqn:Hl; [|cbn|done].
    + eapply (step_start y a ag j p QWoke); try done; [by left| |by rewrite Hpc]. rewrite Hpc. simpl. set_solver.
    + eapply (step_drop_out y _ a ag (ADone (RetVal v (Some (pl j p)))) j p QWoke [(a, EvRet (RetVal v (Some (pl j p))))]); try done.
      * eapply only_agents; [eapply only_goto; [done|apply same_pcs_refl]|done].
      * intros b _. by eapply flag_via.
      * intros l. by repeat constructor.
      * right. split; [by left|]. by rewrite Hl.
  - (* FPollIn *) intros [= <-]. cbn. destruct (a_flag ag) eqn:Hf.
    + eapply (step_woken y a ag _ (JRe j p) j p true); try done; rewrite ?Hpc; try done. by right.
    + eapply (step_token _ _ _ _ ag); try done; rewrite ?Hpc; try done. by intros h ?%elem_of_nil.
  - (* FDropIn *) intros [= <-].
    assert (part_of (a_pc ag) = Some (j, p, QWait true)) as Hp by (by rewrite Hpc).
    destruct (a_flag ag) eqn:Hf.
    + assert (at_load y (pl j p) = Loading ∨ at_load y (pl j p) ≠ Loading) as [Hl|Hl] by (destruct (at_load y (pl j p)); auto).
      * rewrite Hl. cbn. eapply (step_start y a ag j p (QWait true)); try done; [eauto|by intros h ?%elem_of_nil|by rewrite Hpc].
      * assert (match at_load y (pl j p) with Loading => Ok (start_loading dbg y a j p SDropFut) | _ => Ok (finish y a RetCancel) end
          = Ok (finish y a RetCancel)) as -> by (by destruct (at_load y (pl j p))). cbn.
        eapply (step_drop_out y _ a ag (ADone RetCancel) j p (QWait true) [(a, EvRet RetCancel)]); try done.
        -- eapply only_agents; [eapply only_goto; [done|apply same_pcs_refl]|done].
        -- intros b _. by eapply flag_via.
        -- intros l. by repeat constructor.
        -- right. split; [right; eauto|done].
    + eapply step_leave; try done; rewrite ?Hpc; by left.
  - (* IIn *) intros [= <-]. cbn. eapply step_put; done.
  - (* NGo *) destruct ws as [|[b [|]] ws].
    + destruct nm as [rs v wl ref|]; intros [= <-]; cbn.
      * assert (part_of (a_pc ag) = Some (j, p, QNote v [])) as Hp by (by rewrite Hpc).
        destruct (part_linv _ _ _ _ _ _ HC Ha Hp) as [HL Hra].
        destruct (part_alive _ _ _ _ _ _ HC Ha Hp ltac:(done)) as [Ht Hon].
        eapply (cinv_role y _ a ag (FillWant j p rs v wl ref) j p (QNote v []) (QFill v) []); try done.
        -- eapply only_goto; [done|apply same_pcs_refl].
        -- intros b _. apply flag_goto.
        -- by right.
        -- by rewrite app_nil_r.
        -- by left.
        -- by intros h ?%elem_of_nil.
        -- by rewrite Hpc.
        -- apply m_role; try done; simpl; rewrite ?Hra; done.
      * eapply step_finish; [done|done|by rewrite Hpc].
    + done.
    + intros [= <-]. cbn.
      eapply (step_note y a ag b false j p ws nm (set_flag true) (NUnpark j p b ws nm) (EvNote b)); try done; [by rewrite Hpc|by right].
  - (* NUnpark *) intros [= <-]. cbn. eapply (step_token _ _ _ _ ag); try done; rewrite ?Hpc; try done.
    + destruct nm; [done|]. simpl in Hsh. by rewrite Hsh.
    + destruct nm; [done|]. simpl in Hsh. by rewrite Hsh.
    + destruct nm; [done|]. simpl in Hsh. rewrite Hsh. simpl. lia.
  - (* NTask *) intros [= <-]. cbn.
    eapply (step_note y a ag b true j p ws nm _ (NGo j p ws nm) (EvNote b)); try done; [by rewrite Hpc|by left].
  - (* FillIn *) intros [= <-]. eapply step_fill; done.
  - (* DIn *) intros [= <-]. destruct (list.last (waiting_on y (pl j p))) as [w|] eqn:Hl.
    + destruct (step_give y a ag j p w HC Ha Hpc Hl) as [Hld H]. rewrite Hld in H |- *. cbn. exact H.
    + apply list.last_None in Hl. eapply step_end; done.
Qed.
Lemma cinv_spawn y c x : CInv y → part_of x = None → holds (length (y_agents y)) x = [] →
  Forall (λ j, j < length (sc_shards (y_cache y))) (pc_shards x) → pc_shape x → (∀ j i v c, x ≠ GBump j i v c) →
  CInv (logged (add_agent y (Agent c (y_now y) x false false 0 None)) (length (y_agents y)) (EvCall c)).
Proof.
  intros HC Hp Hh Hj Hs Hb. set (y' := logged _ _ _). destruct (HC) as [A B C D E F G].
  assert (∀ b bg, y_agents y' !! b = Some bg → y_agents y !! b = Some bg ∨ (b = length (y_agents y) ∧ a_pc bg = x)) as Hlk.
  { intros b bg Hb'. apply lookup_app_Some in Hb' as [|[Hl Hb']]; [by left|right]. apply list_lookup_singleton_Some in Hb' as [Hb0 <-].
    split; [lia|done]. }
  assert (∀ b, y_agents y' !! b = if decide (b = length (y_agents y)) then Some (Agent c (y_now y) x false false 0 None) else y_agents y !! b) as Hlk2.
  { intros b. unfold y'; simpl. case_decide as Hd; [subst b; by rewrite lookup_app_r, Nat.sub_diag by lia|].
    destruct (decide (b < length (y_agents y))) as [Hlt|Hge]; [by rewrite lookup_app_l|].
    rewrite lookup_app_r by lia. rewrite (lookup_ge_None_2 (y_agents y)) by lia.
    apply lookup_ge_None_2. simpl. lia. }
  split; try done.
  - intros l. eapply (linv_frame y y' l [(length (y_agents y), EvCall c)]); [apply D|..]; try done.
    + intros b. unfold role. rewrite Hlk2. case_decide as Hd; [|done]. subst b. simpl. rewrite role_none by done.
      by rewrite lookup_ge_None_2 by lia.
    + intros b t _. unfold flag. rewrite Hlk2. case_decide as Hd; [|done]. subst b. simpl.
      by rewrite lookup_ge_None_2 by lia.
    + by repeat constructor.
  - intros b c' bg cg Hne Hb' Hc' h h' H1 H2.
    destruct (Hlk _ _ Hb') as [Hb1|[-> Hb1]]; [|rewrite Hb1, Hh in H1; by apply elem_of_nil in H1].
    destruct (Hlk _ _ Hc') as [Hc1|[-> Hc1]]; [|rewrite Hc1, Hh in H2; by apply elem_of_nil in H2].
    by eapply (E b c').
  - intros b bg Hb'. destruct (Hlk _ _ Hb') as [Hb1|[-> Hb1]].
    + destruct (F _ _ Hb1) as [F1 F2 F3 F4]. split; try done.
    + rewrite Hb1. split; try done.
      * intros j p r s. by rewrite Hp.
      * intros j i v c' Hx. by destruct (Hb j i v c').
  - intros j s Hs'. destruct (G j s Hs') as (d & Hd & Hd'). exists d. split; [|done].
    unfold y'; simpl. by rewrite sections_app, app_nil_r.
Qed.
Lemma key_shard y k : CInv y → shard_for (y_cache y) k = Some (shard_idx (sc_mask (y_cache y)) k) ∧
  shard_idx (sc_mask (y_cache y)) k < length (sc_shards (y_cache y)).
Proof.
  intros HC. assert (shard_idx (sc_mask (y_cache y)) k < length (sc_shards (y_cache y))) as H.
  { rewrite (ci_mask _ _ _ _ _ HC), (ci_len _ _ _ _ _ HC). apply shard_idx_lt. }
  split; [|done]. unfold shard_for. by rewrite decide_True.
Qed.
Theorem cstep_keeps dbg y lb r : CInv y → cstep dbg y lb = Some r → keeps_inv y r.
Proof.
  intros HC. destruct lb as [c|a|a|d|a wk|a|a rs v wl|a]; simpl.
  - (* Spawn *) destruct c as [m|k to|k]; simpl.
    + destruct (sync_cmd m) eqn:Hm; [|done]. destruct (key_of m) as [k|] eqn:Hk.
      * destruct (key_shard y k HC) as [-> Hlt]. intros [= <-]. cbn.
        set (x := match m with CGet _ => _ | _ => _ end).
        assert (x = GWant (shard_idx (sc_mask (y_cache y)) k) k CRet ∨ x = PWant (shard_idx (sc_mask (y_cache y)) k) m ∧ ∀ k, m ≠ CGet k) as Hx
          by (unfold x; destruct m; naive_solver).
        apply cinv_spawn; [done|destruct Hx as [->|[-> ?]]; try done..]. all: by repeat constructor.
      * intros [= <-]. cbn. apply cinv_spawn; try done. simpl. apply Forall_forall. intros j Hj%elem_of_seq. lia.
    + destruct (key_shard y k HC) as [-> Hlt]. intros [= <-]. cbn. apply cinv_spawn; try done. by repeat constructor.
    + destruct (key_shard y k HC) as [-> Hlt]. intros [= <-]. cbn. apply cinv_spawn; try done. by repeat constructor.
  - (* Go *) unfold go. destruct (y_agents y !! a) as [ag|] eqn:Ha; [|done]. destruct (wants a (a_pc ag)) as [h|] eqn:Hw.
    + destruct (free y h) eqn:Hf; [|done]. intros [= <-]. cbn. by eapply step_enter.
    + by apply act_keeps.
  - (* Wake *) destruct (y_agents y !! a) as [ag|] eqn:Ha; [|done]. simpl. destruct (a_pc ag) eqn:Hpc; try done.
    intros [= <-]. cbn. easy_goto Hpc.
  - (* Tick *) intros [= <-]. cbn. destruct HC as [A B C D E F G]. split; try done.
    intros b bg Hb. destruct (F _ _ Hb) as [F1 F2 F3 F4]. by split.
  - (* Poll *) destruct (y_agents y !! a) as [ag|] eqn:Ha; [|done]. simpl. destruct (a_pc ag) eqn:Hpc; try done.
    + intros [= <-]. cbn. easy_goto Hpc.
    + intros [= <-]. cbn. easy_goto Hpc.
  - (* DropFut *) destruct (y_agents y !! a) as [ag|] eqn:Ha; [|done]. simpl. destruct (a_pc ag) eqn:Hpc; try done.
    + intros [= <-]. cbn. eapply step_finish; [done|done|by rewrite Hpc].
    + intros [= <-]. cbn. easy_goto Hpc.
  - (* PutG *) destruct (y_agents y !! a) as [ag|] eqn:Ha; [|done]. simpl. destruct (a_pc ag) eqn:Hpc; try done.
    intros [= <-]. cbn. easy_goto Hpc.
  - (* DropG *) destruct (y_agents y !! a) as [ag|] eqn:Ha; [|done]. simpl. destruct (a_pc ag) eqn:Hpc; try done.
    intros [= <-]. cbn. easy_goto Hpc.
Qed.
End concstep4.

Section concsteps.
Context {P : Params} (LW : Lawful P) (PI : ptr_ids P = true).
Context {budget ghosts cap e : N}.
Notation CInv := (CInv budget ghosts cap e).
Lemma cinv_new_sys : CInv (@sys_new P budget ghosts cap e).
Proof.
  destruct (fresh_SI (P:=P) budget ghosts cap e) as [A B C _]. split; try done.
  - intros l. split; simpl; try done; try (by intros ? ?%elem_of_nil).
    + intros _. unfold pend_at, shard_at; simpl. split_and!; try done. destruct (_ !! l.1) as [s|] eqn:E; [|by intros [? ?]].
      apply lookup_replicate in E as [-> _]. by intros [? ?].
    + unfold next_id, shard_at; simpl. intros _ Hb. apply bool_decide_eq_true in Hb. destruct (_ !! l.1) as [s|] eqn:E; [|lia].
      apply lookup_replicate in E as [-> _]. simpl in Hb. lia.
    + unfold tail. simpl. tauto.
    + apply NoDup_nil_2.
    + by intros b w Hw%elem_of_nil.
    + intros. apply NoDup_nil_2.
    + by intros b w Hw%elem_of_nil.
    + intros b [[k H]|[c H]]; by apply elem_of_nil in H.
    + intros v [c H]. by apply elem_of_nil in H.
    + intros b [[k H]|[c H]]; by apply elem_of_nil in H.
  - intros j s Hs. exists (SSt [] (λ _, None) 0). split; [constructor|]. unfold shard_at in Hs; simpl in Hs.
    apply lookup_replicate in Hs as [-> _]. by split_and!.
Qed.
Theorem steps_inv dbg ls y : steps dbg (@sys_new P budget ghosts cap e) ls y → CInv y.
Proof.
  intros H. remember (@sys_new P budget ghosts cap e) as y0 eqn:E. induction H as [|y ls y1 lb y2 H IH Hs]; subst; [apply cinv_new_sys|].
  pose proof (cstep_keeps LW PI dbg y1 lb _ (IH eq_refl) Hs) as H'. exact H'.
Qed.
End concsteps.
