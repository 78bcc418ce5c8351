(* A thread that waits with a timeout, and is not notified, times out. *)
From stdpp Require Import prelude list functions.
From Verif Require Export ConcEnd.

Section conctime.
Context {P : Params} (LW : Lawful P) (PI : ptr_ids P = true).
Context {budget ghosts cap e : N}.
Notation sys := (sys P). Notation pc := (pc P). Notation agent := (agent P).
Notation Reach := (@Reach P (full P) budget ghosts cap e).
Implicit Types (p : plh) (a b : nat) (l : loc) (j : nat) (y : sys) (x : pc) (ag : agent).

(* when nothing moves, whoever waits is in the queue and parked, or a future *)
Lemma rest_queued dbg y l a : Reach y → at_rest dbg y → waiting (y_log y) l a →
  ∃ ag j p, y_agents y !! a = Some ag ∧ l = pl j p ∧ a_flag ag = false ∧
    ((∃ tm, a_pc ag = JPark j p tm ∧ (a, false) ∈ waiting_on y l) ∨ (∃ wk, a_pc ag = FIdle j p wk ∧ (a, true) ∈ waiting_on y l)).
Proof.
  intros HR Hrest Hw. apply (waiting_iff _ _ _ HR) in Hw as (t & Hr & Hf).
  destruct (role_some y l a _ Hr ltac:(done)) as (ag & j & p & Ha & Hp & ->). pose proof (rest_agent _ _ _ _ Hrest Ha) as Hx.
  unfold flag in Hf. rewrite Ha in Hf. exists ag, j, p. split_and!; try done.
  assert ((a, t) ∈ waiting_on y (pl j p)) as Hin.
  { pose proof (ci_load _ _ _ _ _ (rc_c _ HR) (pl j p)) as HL. assert (flag y a = false) as Hf' by (unfold flag; by rewrite Ha).
    destruct (l_reg _ HL a t Hr Hf') as [H|[c H]]; [done|]. exfalso. unfold pend in H. simpl in H.
    destruct (role y (pl j p) c) eqn:Ec; try (by apply elem_of_nil in H).
    all: destruct (role_some y _ c _ Ec ltac:(done)) as (cg & j' & p' & Hc & Hp' & _); pose proof (rest_agent _ _ _ _ Hrest Hc) as Hx'; unfold rest_pc in Hx'; by destruct (a_pc cg). }
  unfold rest_pc in Hx. destruct (a_pc ag) eqn:Epc; try done.
  - injection Hp as -> -> <-. left. eauto.
  - injection Hp as -> -> <-. right. eauto.
Qed.
Lemma rest_free dbg y w : at_rest dbg y → free y w = true.
Proof.
  intros Hrest. destruct (free y w) eqn:E; [done|]. destruct (not_free _ _ E) as (b & bg & z & Hb & Hz & _).
  pose proof (rest_agent _ _ _ _ Hrest Hb) as Hx. unfold rest_pc in Hx. destruct (a_pc bg); try done; by apply elem_of_nil in Hz.
Qed.
Lemma free_goto y a x w : free y w = true → holds a x = [] → free (goto y a x) w = true.
Proof.
  intros Hf Hx. destruct (free (goto y a x) w) eqn:E; [done|]. destruct (not_free _ _ E) as (b & bg & z & Hb & Hz & Hc).
  rewrite lookup_goto in Hb. destruct (decide (b = a)) as [->|Hne].
  - destruct (y_agents y !! a); [|done]. simpl in Hb. injection Hb as <-. simpl in Hz. rewrite Hx in Hz. by apply elem_of_nil in Hz.
  - rewrite option_fmap_id in Hb. unfold free in Hf. rewrite forallb_forall in Hf. assert (In (b, bg) (imap pair (y_agents y))) as Hin.
    { apply elem_of_list_In, elem_of_lookup_imap. by exists b, bg. }
    specialize (Hf _ Hin). simpl in Hf. rewrite forallb_forall in Hf. rewrite Hf in Hc; [done|]. by apply elem_of_list_In.
Qed.
Lemma times_out dbg y l a ag k to : Reach y → at_rest dbg y → waiting (y_log y) l a → y_agents y !! a = Some ag → a_call ag = KLoad k (Some to) →
  ∃ j p st d, l = pl j p ∧ a_pc ag = JPark j p (Some (st, to, d)) ∧
  ∀ t, (st + to ≤ y_now y + t)%N → ∃ y', steps dbg y [Tick t; Wake a; Go a; Go a; Go a; Go a] y' ∧ (a, EvRet RetTimeout) ∈ y_log y'.
Proof.
  intros HR Hrest Hw Ha Hc. destruct (rest_queued _ _ _ _ HR Hrest Hw) as (ag' & j & p & Ha' & -> & Hf & Hx).
  rewrite Ha in Ha'. injection Ha' as <-. pose proof (hi_agent _ (rc_h _ HR) _ _ Ha) as Hh.
  destruct Hx as [(tm & Hpc & Hin)|(wk & Hpc & _)]; rewrite Hpc in Hh; simpl in Hh; [|destruct Hh as (k' & Hk & _); congruence].
  destruct Hh as (k' & Hk & _). destruct tm as [[[st to'] d]|]; [|congruence]. rewrite Hc in Hk. injection Hk as _ <-.
  exists j, p, st, d. split; [done|]. split; [done|]. intros t Ht.
  set (y0 := with_now y (y_now y + t)). set (y1 := goto y0 a (JChk j p (Some (st, to, d)))). set (y2 := goto y1 a (JElapsed j p st to)).
  set (y3 := goto y2 a (JTime j p)). set (y4 := goto y3 a (JTimeIn j p)).
  assert (y_agents y0 !! a = Some ag) as H0 by done.
  assert (y_agents y1 !! a = Some (set_apc (JChk j p (Some (st, to, d))) ag)) as H1 by (unfold y1; rewrite lookup_goto, decide_True, H0 by done; done).
  assert (y_agents y2 !! a = Some (set_apc (JElapsed j p st to) ag)) as H2 by (unfold y2; rewrite lookup_goto, decide_True, H1 by done; done).
  assert (y_agents y3 !! a = Some (set_apc (JTime j p) ag)) as H3 by (unfold y3; rewrite lookup_goto, decide_True, H2 by done; done).
  assert (y_agents y4 !! a = Some (set_apc (JTimeIn j p) ag)) as H4 by (unfold y4; rewrite lookup_goto, decide_True, H3 by done; done).
  assert (∃ y5, Conc.leave y4 j p (a, false) = Ok y5) as [y5 H5].
  { unfold Conc.leave. match goal with |- context [list_find ?f ?ws] => destruct (list_find_elem_of f ws (a, false)) as [[i w] Hl]; [exact Hin|done|] end.
    rewrite Hl. cbn. eauto. }
  exists (finish y5 a RetTimeout). split; [|simpl; apply elem_of_app; right; left].
  change [Tick t; Wake a; Go a; Go a; Go a; Go a] with ((((([Tick (P:=P) t] ++ [Wake a]) ++ [Go a]) ++ [Go a]) ++ [Go a]) ++ [Go a]).
  eapply st_snoc; [eapply st_snoc; [eapply st_snoc; [eapply st_snoc; [eapply st_snoc; [apply (st_snoc _ _ [] y _ y0); [constructor|]|]|]|]|]|].
  - done.
  - cbn [cstep]. rewrite H0. cbn. rewrite Hpc. fold y1. reflexivity.
  - cbn [cstep]. unfold go. rewrite H1. cbn. rewrite Hf. fold y2. reflexivity.
  - cbn [cstep]. unfold go. rewrite H2. cbn. replace (y_now y2) with (y_now y + t)%N by done. destruct (N.ltb_spec (y_now y + t - st) to); [lia|]. fold y3. reflexivity.
  - cbn [cstep]. unfold go. rewrite H3. cbn [set_apc a_pc wants entered]. assert (free y3 (LState (pl j p), MW) = true) as ->; [|fold y4; reflexivity].
    unfold y3, y2, y1. do 3 (apply free_goto; [|done]). change (free y (LState (pl j p), MW) = true). by eapply rest_free.
  - cbn [cstep]. unfold go. rewrite H4. cbn [set_apc a_pc wants act a_flag]. rewrite Hf, H5. reflexivity.
Qed.
End conctime.
