(* Every step does to each shard nothing, or exactly what the section it logs says. *)
From stdpp Require Import prelude list functions.
From Verif Require Export ConcFacts2 ConcPlog.

Section concexact.
Context {P : Params} (LW : Lawful P) (PI : ptr_ids P = true).
Context {budget ghosts cap e : N}.
Notation K := (K P). Notation V := (V P). Notation RS := (RS P).
Notation shard := (shard P). Notation sys := (sys P). Notation pc := (pc P). Notation agent := (agent P).
Notation CInv := (CInv budget ghosts cap e). Notation Reach := (@Reach P (full P) budget ghosts cap e).
Implicit Types (s : shard) (k : K) (v : V) (rs : RS) (p : plh) (a b : nat) (l : loc) (j : nat) (y : sys) (x : pc) (ag : agent).
Implicit Types (c : call P) (h : list (cevent P)) (g es : list (nat * cevent P)).

Definition exact y y' : Prop := ∃ es, y_log y' = y_log y ++ es ∧
  ∀ j s, shard_at y j = Some s → ∃ s', shard_at y' j = Some s' ∧ explained cap budget s s' (sections j es).
Lemma exact_same y y' es : y_log y' = y_log y ++ es → y_cache y' = y_cache y → (∀ j, sections j es = []) → exact y y'.
Proof.
  intros Hl Hc Hs. exists es. split; [done|]. intros j s Hj. exists s. split; [unfold shard_at; by rewrite Hc|]. left. by rewrite Hs.
Qed.
Lemma exact_shard y y' es j s s' : y_log y' = y_log y ++ es → shard_at y j = Some s → y_cache y' = with_shard (y_cache y) j s' →
  (∀ i, i ≠ j → sections i es = []) → explained cap budget s s' (sections j es) → exact y y'.
Proof.
  intros Hl Hj Hc Hs He. exists es. split; [done|]. intros i s0 Hi. unfold shard_at. rewrite Hc. simpl. destruct (decide (i = j)) as [->|Hne].
  - rewrite Hj in Hi. injection Hi as <-. exists s'. split; [|done]. apply list_lookup_insert. by eapply lookup_lt_Some.
  - exists s0. split; [by rewrite list_lookup_insert_ne|]. left. by rewrite Hs.
Qed.
Definition no_sec (ev : cevent P) : bool := match ev with EvSec _ _ _ => false | _ => true end.
Lemma no_secs j a h : forallb no_sec h = true → sections j (map (pair a) h) = [].
Proof.
  induction h as [|ev h IH]; [done|]. simpl. intros [H1 H2]%andb_true_iff. rewrite sections_cons, IH by done. by destruct ev.
Qed.
Lemma one_sec j a i (o : sop P) r h : forallb no_sec h = true →
  sections j (map (pair a) (EvSec i o r :: h)) = if decide (i = j) then [(o, r)] else [].
Proof. intros H. simpl. rewrite sections_cons, no_secs by done. unfold sec_of. simpl. by case_decide. Qed.
(* a step that runs a section *)
Lemma exact_section y y' a z j y1 r h : CInv y → sync_sect z → (∀ p s, handle_of z = Some p → shard_at y j = Some s → hgood s p) →
  section y a j z = Ok (y1, r) → y_cache y' = y_cache y1 → y_log y' = y_log y ++ map (pair a) (EvSec j (op_of z) (res_of r) :: h) →
  forallb no_sec h = true → exact y y'.
Proof.
  intros HC Hz Hh Hs Hc Hl Hn. apply section_eq in Hs as (s & s' & Hj & Hx & ->). destruct (ci_inv _ _ _ _ _ HC _ _ Hj) as [HI Hcf].
  pose proof (xexec_spec LW PI s z HI Hz ltac:(intros p Hp; by eapply Hh)) as H. rewrite Hx in H. simpl in H.
  eapply exact_shard; [exact Hl|exact Hj|exact Hc|..].
  - intros i Hi. rewrite one_sec by done. by rewrite decide_False.
  - rewrite one_sec, decide_True by done. right. eexists _, _. split; [done|]. pose proof (xo_does _ _ _ _ H) as Hd.
    unfold cfg in Hcf. injection Hcf as E1 E2 E3. by rewrite E1, E2 in Hd.
Qed.
Lemma act_exact dbg y a ag y' : CInv y → y_agents y !! a = Some ag → wants a (a_pc ag) = None → act dbg y a ag = Some (Ok y') → exact y y'.
Proof.
  intros HC Ha Hw Hact. destruct (act_mv LW PI _ _ _ _ _ HC Ha Hw Hact) as (x' & es & us & HM & Hm).
  pose proof (md_log _ _ _ _ _ _ Hm) as Hlog.
  revert Hact. unfold act. pose proof (po_shape _ _ (ci_pc _ _ _ _ _ HC _ _ Ha)) as Hsh.
  pose proof (λ j r p s, po_handle _ _ (ci_pc _ _ _ _ _ HC _ _ Ha) j p r s) as Hhg.
  assert (∀ h y1, y_log y' = y_log y ++ map (pair a) h → forallb no_sec h = true → y_cache y' = y_cache y → exact y y') as Hsame.
  { intros h y1 H1 H2 H3. eapply exact_same; [exact H1|done|]. intros j. by apply no_secs. }
  destruct (a_pc ag) eqn:Hpc; try done.
  - (* PIn *) destruct (section y a j (XCmd m)) as [[y1 r]|] eqn:E; [|done]. cbn. destruct r as [o| | | | |]; try done. intros [= <-].
    eapply (exact_section y _ a (XCmd m) j y1 (XO o) [EvRet (RetOut o)] HC); try done; [apply Hsh|].
    apply section_eq in E as (s & s' & _ & _ & ->). simpl. by rewrite <-app_assoc.
  - (* PAll *) destruct js; [|done]. intros [= <-]. eapply (Hsame [_]); done.
  - (* PAllIn *) destruct (section y a j (XCmd m)) as [[y1 r]|] eqn:E; [|done]. cbn. intros [= <-].
    eapply (exact_section y _ a (XCmd m) j y1 r [] HC); try done; [apply Hsh|].
    apply section_eq in E as (s & s' & _ & _ & ->). done.
  - (* GIn *) unfold get_found. destruct (agent_shard y a ag j HC Ha) as [s Hs]; [rewrite Hpc; by left|]. destruct (ci_inv _ _ _ _ _ HC _ _ Hs) as [HI _].
    unfold read_shard. fold (shard_at y j). rewrite Hs. cbn. destruct (search_resident_spec LW s k HI) as (o & -> & Ho). cbn.
    assert (y_cache y = with_shard (y_cache y) j s) as Hid.
    { unfold with_shard. rewrite list_insert_id by done. by destruct (y_cache y). }
    assert (∀ o' x', o' = value_of k (sh_iter s) → exact y (logged (goto y a x') a (EvSec j (OCmd (CGet k)) (SO (plain (RVal o')))))) as Hgen.
    { intros o' x0 ->. eapply (exact_shard _ _ [(a, EvSec j (OCmd (CGet k)) (SO (plain (RVal (value_of k (sh_iter s))))))] j s s); try done.
      - intros i Hi. unfold sections; simpl. unfold sec_of; simpl. by rewrite decide_False.
      - right. eexists _, _. split; [unfold sections; simpl; unfold sec_of; simpl; by rewrite decide_True|].
        unfold abs, sdoes. split_and!; try done. }
    destruct o as [[i r]|]; simpl; intros [= <-]; apply Hgen; unfold value_of.
    + destruct Ho as (_ & _ & ->). done.
    + destruct Ho as (_ & ->). done.
  - (* GBump *) destruct (po_bump _ _ (ci_pc _ _ _ _ _ HC _ _ Ha) j i v c Hpc) as (s & r & Hs & Hr). destruct (ci_inv _ _ _ _ _ HC _ _ Hs) as [HI _].
    unfold read_shard. fold (shard_at y j). rewrite Hs. cbn. unfold fetch_add. rewrite (entry_at_ok _ _ _ Hr). cbn. intros [= <-].
    destruct (quiet_ref LW s i r ((r_ref r + 1) mod 65536)%N HI Hr) as [Hq _].
    eapply (exact_shard _ _ [] j s); [by rewrite app_nil_r|done|done|done|]. by apply expl_quiet.
  - (* GHit *) unfold get_hit. destruct (agent_shard y a ag j HC Ha) as [s Hs]; [rewrite Hpc; by left|]. destruct (ci_inv _ _ _ _ _ HC _ _ Hs) as [HI _].
    unfold read_shard. fold (shard_at y j). rewrite Hs. cbn. intros [= <-].
    eapply (exact_shard _ _ [_] j s (record_hit s)); [done|done|done|done|]. apply expl_quiet; [done|]. by apply quiet_hit, quiet_refl.
  - (* GMiss *) unfold get_miss. destruct (agent_shard y a ag j HC Ha) as [s Hs]; [rewrite Hpc; by left|]. destruct (ci_inv _ _ _ _ _ HC _ _ Hs) as [HI _].
    unfold read_shard. fold (shard_at y j). rewrite Hs. cbn. intros [= <-].
    assert (explained cap budget s (record_miss s) []) as He by (apply expl_quiet; [done|]; by apply quiet_miss, quiet_refl).
    destruct c.
    + by eapply (exact_shard _ _ [_] j s (record_miss s)).
    + eapply (exact_shard _ _ [] j s (record_miss s)); try done. by rewrite app_nil_r.
    + eapply (exact_shard _ _ [] j s (record_miss s)); try done. by rewrite app_nil_r.
  - (* JIn *) destruct (section y a j (XJoin k)) as [[y1 r]|] eqn:E; [|done]. pose proof E as E0. apply section_eq in E0 as (s & s' & _ & _ & E0).
    assert (y_log y1 = y_log y ++ [(a, EvSec j (OJoin k) (res_of r))]) as Hl1 by (by rewrite E0).
    cbn. destruct r as [o|v|p|p|v|]; try done; intros [= <-].
    + eapply (exact_section y _ a (XJoin k) j y1 _ [EvRet (RetVal v None)] HC); try done. simpl. rewrite Hl1. by rewrite <-app_assoc.
    + eapply (exact_section y _ a (XJoin k) j y1 _ [] HC); try done.
    + destruct dbg; cbn.
      * eapply (exact_section y _ a (XJoin k) j y1 _ [] HC); try done.
      * eapply (exact_section y _ a (XJoin k) j y1 _ [EvGuard (pl j p)] HC); try done. simpl. rewrite Hl1. by rewrite <-app_assoc.
  - (* SIn *) destruct (at_load y (pl j p)); try done. intros [= <-]. eapply Hsame; [exact y|exact Hlog| |by destruct sm].
    clear -HM. remember (SIn j p sm) as x. destruct HM; try discriminate Heqx; [by subst|]. injection Heqx as -> -> ->. by destruct sm.
  - (* JPushIn *) unfold push_waiter. destruct (at_load y (pl j p)) eqn:El; try done; intros [= <-].
    + eapply (Hsame [EvWait (pl j p)]); [exact y| |done|by destruct md as [[]|]]. by destruct md as [[]|].
    + eapply (Hsame [_]); done.
  - intros [= <-]. eapply (Hsame []); [exact y|by rewrite app_nil_r|done|done].
  - destruct (a_token ag); [|done]. intros [= <-]. eapply (Hsame []); [exact y|by rewrite app_nil_r|done|done].
  - intros [= <-]. eapply (Hsame []); [exact y|by rewrite app_nil_r|done|done].
  - intros [= <-]. eapply (Hsame []); [exact y|by rewrite app_nil_r|done|done].
  - destruct (a_flag ag).
    + intros [= <-]. eapply (Hsame []); [exact y|by rewrite app_nil_r|done|done].
    + unfold leave. destruct (list_find _ _) as [[i w]|] eqn:E; [|done]. cbn. intros [= <-]. eapply (Hsame [_]); done.
  - destruct (at_load y (pl j p)) eqn:El; try done; intros [= <-].
    + unfold start_loading. destruct dbg.
      * eapply (Hsame []); [exact y|by rewrite app_nil_r|done|done].
      * eapply (Hsame [_]); done.
    + eapply (Hsame [_]); done.
  - intros [= <-]. destruct (a_flag ag); (eapply (Hsame []); [exact y|by rewrite app_nil_r|done|done]).
  - destruct (a_flag ag).
    + destruct (at_load y (pl j p)) eqn:El; intros [= <-].
      * unfold start_loading. destruct dbg; (eapply (Hsame []); [exact y|by rewrite app_nil_r|done|done]).
      * eapply (Hsame [_]); done.
      * eapply (Hsame [_]); done.
    + unfold leave. destruct (list_find _ _) as [[i w]|] eqn:E; [|done]. cbn. intros [= <-]. eapply (Hsame [_]); done.
  - intros [= <-]. eapply (Hsame [_]); done.
  - destruct ws as [|[b [|]] ws]; [destruct nm| |]; try done; intros [= <-].
    + eapply (Hsame []); [exact y|by rewrite app_nil_r|done|done].
    + eapply (Hsame [_]); done.
    + eapply (Hsame [_]); done.
  - intros [= <-]. eapply (Hsame []); [exact y|by rewrite app_nil_r|done|done].
  - intros [= <-]. eapply (Hsame [_]); done.
  - (* FillIn *) destruct (section y a j (XFill rs p referenced v wl)) as [[y1 r]|] eqn:E; [|done].
    pose proof E as E0. apply section_eq in E0 as (s & s' & _ & _ & E0).
    assert (y_log y1 = y_log y ++ [(a, EvSec j (OFill rs (ph_id p) v wl) (res_of r))]) as Hl1 by (by rewrite E0).
    assert (∀ q s0, handle_of (P:=P) (XFill rs p referenced v wl) = Some q → shard_at y j = Some s0 → hgood s0 q) as Hh.
    { intros q s0 [= <-] Hs0. by eapply Hhg. }
    cbn. destruct r as [o| | | |v'|]; try done; intros [= <-].
    + eapply (exact_section y _ a _ j y1 _ [EvRet (RetOut o)] HC _ Hh E); try done. simpl. rewrite Hl1. by rewrite <-app_assoc.
    + eapply (exact_section y _ a _ j y1 _ [EvRet (RetStale v')] HC _ Hh E); try done. simpl. rewrite Hl1. by rewrite <-app_assoc.
  - (* DIn *) destruct (list.last (waiting_on y (pl j p))) as [w|] eqn:Hl.
    + destruct (step_give y a ag j p w HC Ha Hpc Hl) as [Hld _]. rewrite Hld. cbn. intros [= <-]. eapply (Hsame [_]); done.
    + destruct (section (with_ph y (pl j p) (PSt [] Terminated)) a j (XDrop p)) as [[y1 r]|] eqn:E; [|done]. cbn. intros [= <-].
      apply section_eq in E as (s & s' & Hs & Hx & ->). change (shard_at y j = Some s) in Hs.
      assert (section y a j (XDrop p) = Ok (logged (with_cache y (with_shard (y_cache y) j s')) a (EvSec j (ODrop (ph_id p)) (res_of r)), r)) as Hsec.
      { unfold section, on_shard. fold (shard_at y j). rewrite Hs. cbn [unwrap rbind]. rewrite Hx. done. }
      eapply (exact_section y _ a (XDrop p) j _ r [EvEnd (pl j p); EvRet RetDrop] HC I); [|exact Hsec|done| |done].
      * intros q s0 [= <-] Hs0. by eapply Hhg.
      * simpl. by rewrite <-!app_assoc.
  Unshelve. all: try exact I.
Qed.
Lemma cstep_exact dbg y lb y' : CInv y → cstep dbg y lb = Some (Ok y') → exact y y'.
Proof.
  intros HC Hs. assert (∀ a x, exact y (goto y a x)) as Hgo by (intros a x; eapply (exact_same _ _ []); [by rewrite app_nil_r|done..]).
  assert (∀ a r, exact y (finish y a r)) as Hfin by (intros a r; by eapply (exact_same _ _ [_])).
  destruct lb as [c|a|a|d|a wk|a|a rs v wl|a]; simpl in Hs.
  - destruct (first_pc y c) as [[x|]|] eqn:E; try done. cbn in Hs. injection Hs as <-. by eapply (exact_same _ _ [_]).
  - unfold go in Hs. destruct (y_agents y !! a) as [ag|] eqn:Ha; [|done]. destruct (wants a (a_pc ag)) as [h|] eqn:Hw.
    + destruct (free y h) eqn:Hf; [|done]. injection Hs as <-. apply Hgo.
    + by eapply act_exact.
  - destruct (y_agents y !! a) as [ag|] eqn:Ha; [|done]. simpl in Hs. destruct (a_pc ag) eqn:Hpc; try done. injection Hs as <-. apply Hgo.
  - injection Hs as <-. by eapply (exact_same _ _ []); [rewrite app_nil_r|..].
  - destruct (y_agents y !! a) as [ag|] eqn:Ha; [|done]. simpl in Hs. destruct (a_pc ag) eqn:Hpc; try done; injection Hs as <-; apply Hgo.
  - destruct (y_agents y !! a) as [ag|] eqn:Ha; [|done]. simpl in Hs. destruct (a_pc ag) eqn:Hpc; try done; injection Hs as <-; [apply Hfin|apply Hgo].
  - destruct (y_agents y !! a) as [ag|] eqn:Ha; [|done]. simpl in Hs. destruct (a_pc ag) eqn:Hpc; try done; injection Hs as <-; apply Hgo.
  - destruct (y_agents y !! a) as [ag|] eqn:Ha; [|done]. simpl in Hs. destruct (a_pc ag) eqn:Hpc; try done; injection Hs as <-; apply Hgo.
Qed.
End concexact.
