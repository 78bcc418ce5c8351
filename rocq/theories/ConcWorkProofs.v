(* In concurrent use too, the work of evictions is paid for by the uses of the shards before them. *)
From stdpp Require Import prelude list functions.
From Verif Require Export ConcStats WorkProofs ConcWork.

Section concworkproofs.
Context {P : Params} (LW : Lawful P) (PI : ptr_ids P = true) (NP : ∀ k v, pinned P k v = false).
Context (f : point → bool) (cc : N).
Context (free : ∀ p, handles p = false → f p = false).
Context (cold_pays : (κ f PPinned + κ f PWeigh + κ f PBefore + κ f PReweigh + κ f PEvHash + κ f PColdEvict ≤ cc)%N).
Context (hot_pays : (κ f PPinned + κ f PWeigh + κ f PBefore + κ f PReweigh + κ f PEvHash + κ f PHotEvict ≤ cc)%N).
Context {budget ghosts cap e : N}.
Notation K := (K P). Notation V := (V P). Notation RS := (RS P).
Notation shard := (shard P). Notation sys := (sys P). Notation pc := (pc P). Notation agent := (agent P).
Notation CInv := (CInv budget ghosts cap e).
Notation Φ := (Φ (P:=P) cc). Notation most := (most cc).
Implicit Types (s : shard) (k : K) (v : V) (rs : RS) (p : plh) (a b : nat) (j : nat) (y : sys) (x : pc) (ag : agent) (z : sect P).

(* ---- the potential of all shards ---- *)
Definition total (l : list shard) : N := foldr (λ s n, (Φ s + n)%N) 0%N l.
Definition tot y : N := total (sc_shards (y_cache y)).
Lemma total_insert l j s s' : l !! j = Some s → (total (<[j := s']> l) + Φ s = total l + Φ s')%N.
Proof.
  revert j. induction l as [|s0 l IH]; intros [|j] Hj; simpl in *; [done|done|injection Hj as ->; lia|]. specialize (IH j Hj). lia.
Qed.
Definition bumping x : bool := match x with GBump _ _ _ _ => true | _ => false end.
Definition sweat y x : N :=
  match running x with
  | None => 0
  | Some (j, z) => match shard_at y j with None => 0 | Some s => count f (sect_points s z) end
  end.
Lemma effort_sweat y a ag : y_agents y !! a = Some ag → step_effort f y (Go a) = sweat y (a_pc ag).
Proof. unfold step_effort, sweat, shard_at. by intros ->. Qed.
Lemma uses_app (g h : list (nat * cevent P)) : uses (g ++ h) = (uses g + uses h)%N.
Proof. unfold uses. rewrite List.filter_app, app_length. lia. Qed.
Lemma uses_none a (es : list (cevent P)) : forallb no_sec es = true → uses (map (pair a) es) = 0%N.
Proof.
  unfold uses. induction es as [|ev es IH]; [done|]. cbn [forallb map]. intros [H1 H2]%andb_true_iff.
  cbn [List.filter]. unfold is_use at 1. cbn [snd]. destruct ev; try done; by apply IH.
Qed.

(* ---- one step ---- *)
Definition affords y y' x x' (a : nat) (es : list (cevent P)) : Prop :=
  (sweat y x + tot y' + b2n (bumping x') ≤ tot y + b2n (bumping x) + most * uses (map (pair a) es))%N.
Lemma idle_bump x : idle x = true → bumping x = false. Proof. by destruct x. Qed.
Lemma affords_same y y' x x' a es : y_cache y' = y_cache y → running x = None → idle x' = true → affords y y' x x' a es.
Proof. intros Hc Hx Hx'. unfold affords, sweat, tot. rewrite Hc, Hx, (idle_bump x') by done. simpl. lia. Qed.
Lemma affords_section y y' a z j y1 r x x' h : CInv y → sync_sect z →
  (∀ p s, handle_of z = Some p → shard_at y j = Some s → hgood s p) →
  (running x = Some (j, z) ∨ running x = None) →
  section y a j z = Ok (y1, r) → y_cache y' = y_cache y1 → idle x' = true →
  affords y y' x x' a (EvSec j (op_of z) (res_of r) :: h).
Proof.
  intros HC Hz Hh Hr Hs Hc Hx'. apply section_eq in Hs as (s & s' & Hj & Hxe & ->).
  destruct (ci_inv _ _ _ _ _ HC _ _ Hj) as [HI _].
  pose proof (w_sect LW NP f cc free cold_pays hot_pays PI s z HI Hz (λ p Hp, Hh p s Hp Hj)) as Hw. rewrite Hxe in Hw.
  pose proof (total_insert _ _ _ s' Hj) as Ht. unfold affords, tot. rewrite Hc, (idle_bump x') by done. cbn [y_cache logged with_cache with_shard sc_shards].
  assert (sweat y x ≤ count f (sect_points s z))%N as Hsw.
  { unfold sweat. destruct Hr as [-> | ->]; [rewrite Hj; lia|lia]. }
  assert (1 ≤ uses (map (pair a) (EvSec j (op_of z) (res_of r) :: h)))%N as Hu.
  { unfold uses. simpl. lia. }
  change (b2n false) with 0%N. nia.
Qed.
Lemma affords_get y y' a j k g x' o : y_cache y' = y_cache y → affords y y' (GIn j k g) x' a [EvSec j (OCmd (CGet k)) o].
Proof.
  intros Hc. unfold affords, tot. rewrite Hc. assert (sweat y (GIn j k g) = 0%N) as ->.
  { unfold sweat. cbn [running]. destruct (shard_at y j) as [s|]; [|done]. exact (noc_inner_get f cc free cold_pays hot_pays s k). }
  change (uses _) with 1%N. unfold WorkProofs.most. destruct (bumping x'); simpl; lia.
Qed.
Lemma affords_count y y' a j s s' x x' es : shard_at y j = Some s → y_cache y' = with_shard (y_cache y) j s' →
  running x = None → (Φ s' + b2n (bumping x') ≤ Φ s + b2n (bumping x))%N → affords y y' x x' a es.
Proof.
  intros Hj Hc Hx Hle. pose proof (total_insert _ _ _ s' Hj) as Ht. unfold affords, tot, sweat. rewrite Hc, Hx.
  cbn [with_shard sc_shards]. lia.
Qed.
Local Ltac via HM := match goal with Hsame : running _ = None → _ |- _ => apply Hsame;
  [done|inversion HM; subst; try congruence; try done|try done] end.
Lemma act_affords dbg y a ag y' : CInv y → y_agents y !! a = Some ag → wants a (a_pc ag) = None → act dbg y a ag = Some (Ok y') →
  ∃ x' es us, moved y y' a x' es us ∧ affords y y' (a_pc ag) x' a es.
Proof.
  intros HC Ha Hw Hact. destruct (act_mv LW PI _ _ _ _ _ HC Ha Hw Hact) as (x' & es & us & HM & Hm).
  exists x', es, us. split; [done|].
  assert (∀ X ES, a_pc <$> y_agents y' !! a = Some X → y_log y' = y_log y ++ map (pair a) ES → affords y y' (a_pc ag) X a ES →
    affords y y' (a_pc ag) x' a es) as Hfix.
  { intros X ES HX HE. rewrite (md_log _ _ _ _ _ _ Hm) in HE. apply app_inv_head in HE. apply (inj (map (pair a))) in HE as <-.
    rewrite (md_lookup _ _ _ _ _ _ _ Hm), Ha in HX. simpl in HX. rewrite decide_True in HX by done. simpl in HX. by injection HX as ->. }
  revert Hact. unfold act. pose proof (po_shape _ _ (ci_pc _ _ _ _ _ HC _ _ Ha)) as Hsh.
  pose proof (λ j r p s, po_handle _ _ (ci_pc _ _ _ _ _ HC _ _ Ha) j p r s) as Hhg.
  assert (running (a_pc ag) = None → idle x' = true → y_cache y' = y_cache y → affords y y' (a_pc ag) x' a es) as Hsame.
  { intros ???. by apply affords_same. }
  destruct (a_pc ag) eqn:Hpc; try done.
  - (* PIn *) destruct (section y a j (XCmd m)) as [[y1 r]|] eqn:E; [|done]. cbn. destruct r as [o| | | | |]; try done. intros [= <-].
    pose proof E as E0. apply section_eq in E0 as (s & s' & _ & _ & E0).
    eapply Hfix; [eapply pc_goto; by rewrite E0| |eapply (affords_section y _ a (XCmd m) j y1 (XO o) _ _ [EvRet (RetOut o)] HC (proj1 Hsh)); try done; by left].
    rewrite E0. simpl. by rewrite <-app_assoc.
  - (* PAll *) destruct js; [|done]. intros [= <-]. via HM.
  - (* PAllIn *) destruct (section y a j (XCmd m)) as [[y1 r]|] eqn:E; [|done]. cbn. intros [= <-].
    pose proof E as E0. apply section_eq in E0 as (s & s' & _ & _ & E0).
    eapply Hfix; [eapply pc_goto; by rewrite E0| |eapply (affords_section y _ a (XCmd m) j y1 r _ _ [] HC (proj1 Hsh)); try done; by left].
    by rewrite E0.
  - (* GIn *) unfold get_found. destruct (agent_shard y a ag j HC Ha) as [s Hs]; [rewrite Hpc; by left|].
    unfold read_shard. fold (shard_at y j). rewrite Hs. cbn. destruct (search_resident s (hash P k) k) as [[[i r]|]|]; cbn; [| |done]; intros [= <-].
    + eapply Hfix; [by eapply pc_goto|by instantiate (1 := [_])|]. by apply affords_get.
    + eapply Hfix; [by eapply pc_goto|by instantiate (1 := [_])|]. by apply affords_get.
  - (* GBump *) destruct (po_bump _ _ (ci_pc _ _ _ _ _ HC _ _ Ha) j i v c Hpc) as (s & r & Hs & Hr).
    unfold read_shard. fold (shard_at y j). rewrite Hs. cbn. unfold fetch_add. rewrite (entry_at_ok _ _ _ Hr). cbn. intros [= <-].
    eapply Hfix; [by eapply pc_goto|by instantiate (1 := []); rewrite app_nil_r|]. eapply (affords_count _ _ _ j s); [done|done|done|]. simpl. pose proof (Φ_bump f cc cold_pays hot_pays s i r Hr). lia.
  - (* GHit *) unfold get_hit. destruct (agent_shard y a ag j HC Ha) as [s Hs]; [rewrite Hpc; by left|].
    unfold read_shard. fold (shard_at y j). rewrite Hs. cbn. intros [= <-].
    eapply Hfix; [by eapply pc_goto|by instantiate (1 := [_])|]. by eapply (affords_count _ _ _ j s (record_hit s)).
  - (* GMiss *) unfold get_miss. destruct (agent_shard y a ag j HC Ha) as [s Hs]; [rewrite Hpc; by left|].
    unfold read_shard. fold (shard_at y j). rewrite Hs. cbn. intros [= <-].
    destruct c.
    + eapply Hfix; [by eapply pc_goto|by instantiate (1 := [_])|]. by eapply (affords_count _ _ _ j s (record_miss s)).
    + eapply Hfix; [by eapply pc_goto|by instantiate (1 := []); rewrite app_nil_r|]. by eapply (affords_count _ _ _ j s (record_miss s)).
    + eapply Hfix; [by eapply pc_goto|by instantiate (1 := []); rewrite app_nil_r|]. by eapply (affords_count _ _ _ j s (record_miss s)).
  - (* JIn *) destruct (section y a j (XJoin k)) as [[y1 r]|] eqn:E; [|done]. pose proof E as E0. apply section_eq in E0 as (s & s' & _ & _ & E0).
    assert (y_log y1 = y_log y ++ [(a, EvSec j (OJoin k) (res_of r))]) as Hl1 by (by rewrite E0).
    cbn. destruct r as [o|v|p|p|v|]; try done; intros [= <-].
    + eapply Hfix; [eapply pc_goto; by rewrite E0| |eapply (affords_section y _ a (XJoin k) j y1 (XHit v) _ _ [EvRet (RetVal v None)] HC I); try done; by left].
      simpl. rewrite Hl1. by rewrite <-app_assoc.
    + eapply Hfix; [eapply pc_goto; by rewrite E0| |eapply (affords_section y _ a (XJoin k) j y1 _ _ _ [] HC I); try done; by left]. done.
    + destruct dbg; cbn.
      * eapply Hfix; [eapply pc_goto; by rewrite E0| |eapply (affords_section y _ a (XJoin k) j y1 _ _ _ [] HC I); try done; by left]. done.
      * eapply Hfix; [eapply pc_goto; by rewrite E0| |eapply (affords_section y _ a (XJoin k) j y1 _ _ _ [EvGuard (pl j p)] HC I); try done; by left].
        simpl. rewrite Hl1. by rewrite <-app_assoc.
  - (* SIn *) destruct (at_load y (pl j p)); try done. intros [= <-]. via HM; by destruct sm.
  - (* JPushIn *) unfold push_waiter. destruct (at_load y (pl j p)) eqn:El; try done; intros [= <-].
    + via HM; by destruct md as [[]|].
    + via HM.
  - intros [= <-]. via HM.
  - destruct (a_token ag); [|done]. intros [= <-]. via HM.
  - intros [= <-]. via HM.
  - intros [= <-]. via HM.
  - destruct (a_flag ag) eqn:Ef.
    + intros [= <-]. via HM.
    + unfold leave. destruct (list_find _ _) as [[i w]|] eqn:E; [|done]. cbn. intros [= <-]. via HM.
  - destruct (at_load y (pl j p)) eqn:El; try done; intros [= <-].
    + via HM; try (match goal with H : starts _ _ _ _ _ _ |- _ => by destruct H end). unfold start_loading. by destruct dbg.
    + via HM; try (match goal with H : starts _ _ _ _ _ _ |- _ => by destruct H end).
  - intros [= <-]. via HM. by destruct (a_flag ag).
  - destruct (a_flag ag) eqn:Ef.
    + destruct (at_load y (pl j p)) eqn:El; intros [= <-]; via HM; try (match goal with H : starts _ _ _ _ _ _ |- _ => by destruct H end).
      unfold start_loading. by destruct dbg.
    + unfold leave. destruct (list_find _ _) as [[i w]|] eqn:E; [|done]. cbn. intros [= <-]. via HM.
      all: try (match goal with H : starts _ _ _ _ _ _ |- _ => by destruct H end).
  - intros [= <-]. via HM.
  - destruct ws as [|[b [|]] ws]; [destruct nm| |]; try done; intros [= <-]; via HM.
  - intros [= <-]. via HM.
  - intros [= <-]. via HM.
  - (* FillIn *) destruct (section y a j (XFill rs p referenced v wl)) as [[y1 r]|] eqn:E; [|done].
    pose proof E as E0. apply section_eq in E0 as (s & s' & _ & _ & E0).
    assert (y_log y1 = y_log y ++ [(a, EvSec j (OFill rs (ph_id p) v wl) (res_of r))]) as Hl1 by (by rewrite E0).
    assert (∀ q s0, handle_of (P:=P) (XFill rs p referenced v wl) = Some q → shard_at y j = Some s0 → hgood s0 q) as Hh.
    { intros q s0 [= <-] Hs0. by eapply Hhg. }
    cbn. destruct r as [o| | | |v'|]; try done; intros [= <-].
    + eapply Hfix; [eapply pc_goto; by rewrite E0| |eapply (affords_section y _ a (XFill rs p referenced v wl) j y1 (XO o) _ _ [EvRet (RetOut o)] HC I Hh); try done; by left].
      simpl. rewrite Hl1. by rewrite <-app_assoc.
    + eapply Hfix; [eapply pc_goto; by rewrite E0| |eapply (affords_section y _ a (XFill rs p referenced v wl) j y1 (XStale v') _ _ [EvRet (RetStale v')] HC I Hh); try done; by left].
      simpl. rewrite Hl1. by rewrite <-app_assoc.
  - (* DIn *) destruct (list.last (waiting_on y (pl j p))) as [w|] eqn:Hl.
    + destruct (step_give y a ag j p w HC Ha Hpc Hl) as [Hld _]. rewrite Hld. cbn. intros [= <-].
      eapply Hfix; [by eapply pc_goto|by instantiate (1 := [_])|]. by apply affords_same.
    + destruct (section (with_ph y (pl j p) (PSt [] Terminated)) a j (XDrop p)) as [[y1 r]|] eqn:E; [|done]. cbn. intros [= <-].
      apply section_eq in E as (s & s' & Hs & Hx & ->). change (shard_at y j = Some s) in Hs.
      assert (section y a j (XDrop p) = Ok (logged (with_cache y (with_shard (y_cache y) j s')) a (EvSec j (ODrop (ph_id p)) (res_of r)), r)) as Hsec.
      { unfold section, on_shard. fold (shard_at y j). rewrite Hs. cbn [unwrap rbind]. rewrite Hx. done. }
      eapply Hfix; [by eapply pc_goto| |eapply (affords_section y _ a (XDrop p) j _ r _ _ [EvEnd (pl j p); EvRet RetDrop] HC I); [|by right|exact Hsec|done|done]].
      * simpl. by rewrite <-!app_assoc.
      * intros q s0 [= <-] Hs0. by eapply Hhg.
Qed.

(* ---- every execution ---- *)
Definition afforded y (w : N) : Prop := (w + tot y + uncounted bumping y ≤ most * uses (y_log y))%N.
Lemma afforded_moved y y' a ag x' es us w : moved y y' a x' es us → y_agents y !! a = Some ag → affords y y' (a_pc ag) x' a es →
  afforded y w → afforded y' (w + sweat y (a_pc ag)).
Proof.
  intros M Ha Hf Hy. unfold afforded in *. rewrite (md_log _ _ _ _ _ _ M), uses_app. pose proof (uncounted_moved bumping _ _ _ _ _ _ _ M Ha) as Hu.
  unfold affords in Hf. nia.
Qed.
Lemma cstep_afforded dbg y lb y' w : CInv y → cstep dbg y lb = Some (Ok y') → afforded y w → afforded y' (w + step_effort f y lb).
Proof.
  intros HC Hs Hb.
  assert (∀ a ag x, y_agents y !! a = Some ag → running (a_pc ag) = None → idle x = true → afforded (goto y a x) (w + 0)) as Hgo.
  { intros a ag x Ha Hi Hx. assert (sweat y (a_pc ag) = 0%N) as <- by (unfold sweat; by rewrite Hi).
    eapply afforded_moved; [apply moved_goto|done|by apply affords_same|done]. }
  destruct lb as [c|a|a|d|a wk|a|a rs v wl|a]; simpl in Hs.
  - destruct (first_pc y c) as [[x|]|] eqn:E; try done. cbn in Hs. injection Hs as <-.
    assert (idle x = true) as Hx.
    { unfold first_pc in E. destruct c as [m|k to|k]; [destruct (sync_cmd m); [destruct (key_of m)|done]|..]; simpl in E;
        try (destruct (shard_for _ _); [|done]); simpl in E; injection E as <-; try done. by destruct m. }
    unfold afforded in *. cbn [step_effort]. simpl y_log. rewrite uses_app. unfold uncounted in *. simpl y_agents. rewrite List.filter_app, app_length. simpl.
    rewrite (idle_bump x) by done. simpl. change (uses [_]) with 0%N. unfold tot in *. simpl in *. lia.
  - destruct (y_agents y !! a) as [ag|] eqn:Ha; [|by unfold go in Hs; rewrite Ha in Hs]. rewrite (effort_sweat _ _ _ Ha).
    unfold go in Hs. rewrite Ha in Hs. destruct (wants a (a_pc ag)) as [h|] eqn:Hw.
    + destruct (Conc.free y h) eqn:Hf; [|done]. injection Hs as <-. assert (sweat y (a_pc ag) = 0%N) as ->.
      { unfold sweat. destruct (a_pc ag) eqn:Hpc; try done. }
      eapply Hgo; [done|..]; destruct (a_pc ag) eqn:Hpc; try done.
      * by destruct js.
      * by destruct ws as [|[? []] ?].
    + destruct (act_affords _ _ _ _ _ HC Ha Hw Hs) as (x' & es & us & M & Hp). by eapply afforded_moved.
  - destruct (y_agents y !! a) as [ag|] eqn:Ha; [|done]. simpl in Hs. destruct (a_pc ag) eqn:Hpc; try done. injection Hs as <-. eapply Hgo; by rewrite ?Hpc.
  - injection Hs as <-. cbn [step_effort]. by rewrite N.add_0_r.
  - destruct (y_agents y !! a) as [ag|] eqn:Ha; [|done]. simpl in Hs. destruct (a_pc ag) eqn:Hpc; try done; injection Hs as <-; eapply Hgo; by rewrite ?Hpc.
  - destruct (y_agents y !! a) as [ag|] eqn:Ha; [|done]. simpl in Hs. destruct (a_pc ag) eqn:Hpc; try done; injection Hs as <-; [|eapply Hgo; by rewrite ?Hpc].
    cbn [step_effort]. assert (sweat y (a_pc ag) = 0%N) as <- by (unfold sweat; by rewrite Hpc).
    eapply afforded_moved; [apply moved_finish|done|by apply affords_same; rewrite ?Hpc|done].
  - destruct (y_agents y !! a) as [ag|] eqn:Ha; [|done]. simpl in Hs. destruct (a_pc ag) eqn:Hpc; try done; injection Hs as <-; eapply Hgo; by rewrite ?Hpc.
  - destruct (y_agents y !! a) as [ag|] eqn:Ha; [|done]. simpl in Hs. destruct (a_pc ag) eqn:Hpc; try done; injection Hs as <-; eapply Hgo; by rewrite ?Hpc.
Qed.
Lemma effort_snoc dbg y ls y1 lb y2 : steps dbg y ls y1 → cstep dbg y1 lb = Some (Ok y2) →
  conc_effort f dbg y (ls ++ [lb]) = (conc_effort f dbg y ls + step_effort f y1 lb)%N.
Proof.
  intros H Hs. assert (∀ l, conc_effort f dbg y (ls ++ l) = (conc_effort f dbg y ls + conc_effort f dbg y1 l)%N) as Hl.
  { clear Hs lb y2. induction H as [|y ls y1 lb y2 H IH Hs]; intros l; [done|]. rewrite <-app_assoc, !IH. simpl. rewrite Hs. simpl. lia. }
  rewrite Hl. simpl. rewrite Hs. lia.
Qed.
Lemma afforded_all dbg ls y : execution dbg budget ghosts cap e ls y → afforded y (conc_effort f dbg (sys_new budget ghosts cap e) ls).
Proof.
  intros H. unfold execution in H. remember (sys_new budget ghosts cap e) as y0. induction H as [|y0 ls y1 lb y2 H IH Hs].
  - subst. unfold afforded. simpl. assert (tot (sys_new budget ghosts cap e) = 0%N) as ->; [|unfold uncounted, uses; simpl; lia].
    unfold tot. simpl. induction (N.to_nat (2 ^ e)) as [|n IH]; [done|]. simpl. by rewrite IH.
  - subst y0. destruct (ginv LW PI _ _ _ H) as [HR _]. rewrite (effort_snoc _ _ _ _ _ _ H Hs). eapply cstep_afforded; [apply HR|done|by apply IH].
Qed.
Lemma one_section_work dbg ls y a ag j z s : execution dbg budget ghosts cap e ls y →
  y_agents y !! a = Some ag → running (a_pc ag) = Some (j, z) → sc_shards (y_cache y) !! j = Some s →
  (count f (sect_points s z) ≤ WorkProofs.top cc * N.of_nat (length (sh_iter s)) + most)%N.
Proof.
  intros H Ha Hr Hj. destruct (ginv LW PI _ _ _ H) as [HR _]. pose proof (rc_c _ HR) as HC.
  destruct (ci_inv _ _ _ _ _ HC _ _ Hj) as [HI _].
  pose proof (Φ_len f cc cold_pays hot_pays s HI) as Hl. rewrite (len_exact s HI) in Hl.
  assert (sync_sect z ∧ ∀ p, handle_of z = Some p → hgood s p) as [Hz Hh].
  { pose proof (po_shape _ _ (ci_pc _ _ _ _ _ HC _ _ Ha)) as Hsh.
    pose proof (λ j r p s, po_handle _ _ (ci_pc _ _ _ _ _ HC _ _ Ha) j p r s) as Hhg.
    destruct (a_pc ag) eqn:Hpc; try done; simpl in Hr; injection Hr as <- <-; (split; [try done; try apply Hsh|]); try done.
    intros q [= <-]. by eapply Hhg. }
  pose proof (w_sect LW NP f cc free cold_pays hot_pays PI s z HI Hz Hh) as Hw. lia.
Qed.

(* ---- how often the calls use the shards ---- *)
Definition waits (g : gcont) : bool := match g with CRet => false | _ => true end.
Definition rank x : N :=
  match x with
  | PWant _ _ | PIn _ _ => 1
  | PAll _ js => N.of_nat (length js)
  | PAllIn _ _ js => N.of_nat (S (length js))
  | GWant _ _ g | GIn _ _ g => if waits g then 3 else 1
  | GBump _ _ _ _ | GHit _ _ _ => 0
  | GMiss _ _ g => if waits g then 2 else 0
  | JWant _ _ _ | JIn _ _ _ => 2
  | FNew _ _ => 3
  | NGo _ _ _ NDrop | NUnpark _ _ _ _ NDrop | NTask _ _ _ _ NDrop => 0
  | ADone _ => 0
  | _ => 1
  end.
Definition ranks (X : list pc) : N := foldr (λ x n, (rank x + n)%N) 0%N X.
Lemma ranks_insert X a x x' : X !! a = Some x → (ranks (<[a := x']> X) + rank x = ranks X + rank x')%N.
Proof. revert a. induction X as [|x0 X IH]; intros [|a] Ha; simpl in *; [done|done|injection Ha as ->; lia|]. specialize (IH a Ha). lia. Qed.
Lemma ranks_app X Y : ranks (X ++ Y) = (ranks X + ranks Y)%N.
Proof. induction X as [|x X IH]; simpl; [done|]. rewrite IH. lia. Qed.
Lemma mv_rank dbg y a ag x x' es us : mv dbg y a ag x x' es us → (uses (map (pair a) es) + rank x' ≤ rank x)%N.
Proof.
  assert (∀ sm j p x' es, starts dbg sm j p x' es → rank x' = 1%N ∧ uses (map (pair a) es) = 0%N) as Hst.
  { intros sm j p y0 es0 [_|_]; [done|]. by destruct sm. }
  assert (∀ ev l, uses (map (pair a) (ev :: l)) = (uses [(a, ev)] + uses (map (pair a) l))%N) as Hc by (intros; apply (uses_app [_])).
  intros M. destruct M; try (unfold uses; simpl; lia).
  - destruct x; simpl in H; try done; unfold uses; simpl; try lia.
    + destruct js; simpl; lia.
    + destruct ws as [|[? []] ?]; simpl; lia.
  - destruct H as [-> | ->]; unfold uses; simpl; destruct (waits c); lia.
  - unfold uses; simpl; destruct (waits c); lia.
  - destruct (Hst _ _ _ _ _ H) as [E1 E2]. rewrite Hc, E1, E2. change (uses [_]) with 1%N. simpl. lia.
  - by destruct sm.
  - by destruct md as [[]|].
  - destruct (Hst _ _ _ _ _ H0) as [E1 E2]. rewrite E1, E2. done.
  - destruct (Hst _ _ _ _ _ H1) as [E1 E2]. rewrite E1, E2. done.
Qed.
Lemma ext_rank lb a ag x x' es : ext lb a ag x x' es → (uses (map (pair a) es) + rank x' ≤ rank x)%N.
Proof. intros M. destruct M; unfold uses; simpl; lia. Qed.
Lemma first_rank y c x : length (sc_shards (y_cache y)) = N.to_nat (2 ^ e) → first_pc y c = Some (Ok x) → (rank x ≤ call_uses e c)%N.
Proof.
  intros Hl. unfold first_pc, call_uses. destruct c as [m|k to|k].
  - destruct (sync_cmd m); [|done]. destruct (key_of m).
    + destruct (shard_for _ _); [|done]. simpl. intros [= <-]. by destruct m.
    + intros [= <-]. simpl. rewrite seq_length, Hl. lia.
  - destruct (shard_for _ _); [|done]. simpl. by intros [= <-].
  - destruct (shard_for _ _); [|done]. simpl. by intros [= <-].
Qed.
Definition within y (n : N) : Prop := (uses (y_log y) + ranks (map a_pc (y_agents y)) ≤ n)%N.
Lemma cstep_within dbg y lb y' n : CInv y → length (sc_shards (y_cache y)) = N.to_nat (2 ^ e) → cstep dbg y lb = Some (Ok y') → within y n →
  length (sc_shards (y_cache y')) = N.to_nat (2 ^ e) ∧ within y' (n + match lb with Spawn c => call_uses e c | _ => 0 end).
Proof.
  intros HC Hl Hs Hy. pose proof (cstep_stepped LW PI _ _ _ _ HC Hs) as Hst.
  assert (∀ a ag x' es us d, y_agents y !! a = Some ag → moved y y' a x' es us → (uses (map (pair a) es) + rank x' ≤ rank (a_pc ag))%N →
    length (sc_shards (y_cache y')) = N.to_nat (2 ^ e) ∧ within y' (n + d)) as Hmv.
  { intros a ag x' es us d Ha M Hr. split; [by rewrite (md_len _ _ _ _ _ _ M)|]. unfold within in *.
    rewrite (md_log _ _ _ _ _ _ M), uses_app, (map_pcs _ _ _ _ _ _ _ M Ha).
    pose proof (ranks_insert (map a_pc (y_agents y)) a (a_pc ag) x' ltac:(by rewrite list_lookup_fmap, Ha)). lia. }
  destruct Hst as [a ag x' es us Ha M Hm|lb a ag x' es Ha M Hm|c x Hf ->|d ->].
  - eapply Hmv; [exact Ha|exact Hm|by eapply mv_rank].
  - eapply Hmv; [exact Ha|exact Hm|by eapply ext_rank].
  - split; [done|]. pose proof (first_rank _ _ _ Hl Hf). unfold within in *. simpl. rewrite uses_app, map_app, ranks_app. simpl. change (uses [_]) with 0%N. lia.
  - split; [done|]. by rewrite N.add_0_r.
Qed.
Lemma calls_use_app (l1 l2 : list (label P)) : calls_use e (l1 ++ l2) = (calls_use e l1 + calls_use e l2)%N.
Proof. induction l1 as [|lb l1 IH]; [done|]. simpl. unfold calls_use in *. simpl. rewrite IH. lia. Qed.
Lemma within_all dbg ls y : execution dbg budget ghosts cap e ls y → (uses (y_log y) ≤ calls_use e ls)%N.
Proof.
  intros H. assert (length (sc_shards (y_cache y)) = N.to_nat (2 ^ e) ∧ within y (calls_use e ls)) as [_ Hw]; [|unfold within in Hw; lia].
  unfold execution in H. remember (sys_new budget ghosts cap e) as y0. induction H as [|y0 ls y1 lb y2 H IH Hs].
  - subst. split; [simpl; by rewrite replicate_length|done].
  - subst y0. destruct (ginv LW PI _ _ _ H) as [HR _]. destruct (IH eq_refl) as [Hl Hw]. rewrite calls_use_app.
    destruct (cstep_within _ _ _ _ _ (rc_c _ HR) Hl Hs Hw) as [Hl' Hw']. split; [done|]. unfold calls_use at 2. simpl. by rewrite N.add_0_r.
Qed.
End concworkproofs.
