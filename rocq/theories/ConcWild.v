(* Executions in which the hotness counters change by themselves at any time, to any value. *)
From stdpp Require Import prelude list functions.
From Verif Require Export ConcLive.

Section concwild.
Context {P : Params} (LW : Lawful P) (PI : ptr_ids P = true).
Context {budget ghosts cap e : N}.
Notation K := (K P). Notation V := (V P). Notation RS := (RS P).
Notation shard := (shard P). Notation sys := (sys P). Notation pc := (pc P). Notation agent := (agent P).
Notation CInv := (CInv budget ghosts cap e). Notation Reach := (@Reach P (full P) budget ghosts cap e).
Implicit Types (s : shard) (k : K) (v : V) (rs : RS) (p : plh) (a b : nat) (l : loc) (j : nat) (y : sys) (x : pc) (ag : agent).
Implicit Types (c : call P) (h : list (cevent P)) (g es : list (nat * cevent P)).

Lemma entry_at_inv s i z : entry_at s i = Ok z → its_of s !! i = Some (Some z).
Proof.
  unfold entry_at, its_of, slab_get, items. rewrite list_lookup_fmap. destruct (ents (sh_ents s) !! i) as [w|]; [|done]. simpl.
  destruct (item w); [|done]. by intros [= ->].
Qed.
Lemma cinv_scramble y y' : CInv y → scrambles y y' → CInv y' ∧ exact (cap:=cap) (budget:=budget) y y'.
Proof.
  intros HC (j & s & i & r & n & Hs & Hr%entry_at_inv & ->). change (shard_at y j = Some s) in Hs. destruct (ci_inv _ _ _ _ _ HC _ _ Hs) as [HI Hcf].
  destruct (quiet_ref LW s i r n HI Hr) as [Hq _]. set (s' := set_entry s i (Resident (set_key_ref r n))) in *.
  destruct (quiet_abs _ _ HI Hq) as (_ & Hpd & Hn).
  assert (∀ i0, shard_at (put_shard y j s') i0 = if decide (i0 = j) then Some s' else shard_at y i0) as Hput.
  { intros i0. unfold shard_at. simpl. case_decide; [subst; apply list_lookup_insert; by eapply lookup_lt_Some|by rewrite list_lookup_insert_ne]. }
  split.
  - split; try apply HC.
    + simpl. rewrite insert_length. apply (ci_len _ _ _ _ _ HC).
    + intros i0 s0. rewrite Hput. case_decide; [|apply (ci_inv _ _ _ _ _ HC)]. intros [= <-]. split; [apply (q_inv _ _ Hq)|].
      rewrite (q_cfg _ _ Hq). done.
    + intros l. eapply linv_ext; [apply (ci_load _ _ _ _ _ HC l)|..]; try done.
      * simpl. unfold pend_at. rewrite Hput. case_decide as Hd; [|done]. by rewrite Hd, Hs, Hpd.
      * simpl. unfold next_id. rewrite Hput. case_decide as Hd; [|done]. by rewrite Hd, Hs, Hn.
    + intros a ag Ha. destruct (ci_pc _ _ _ _ _ HC _ _ Ha) as [A B C D]. split; try done.
      * simpl. by rewrite insert_length.
      * intros j0 p r0 s0 Hp. rewrite Hput. case_decide; [|by apply (C _ _ _ _ Hp)]. subst j0. intros [= <-] t q b. rewrite (q_ph _ _ Hq). by apply (C _ _ _ _ Hp Hs).
      * intros j0 i0 v c E. destruct (D _ _ _ _ E) as (s0 & r0 & Hs0 & Hr0). rewrite Hput. case_decide; [|eauto]. subst j0. rewrite Hs in Hs0. injection Hs0 as <-.
        exists s'. unfold s'. rewrite (its_set_entry s i _ _ Hr).
        destruct (decide (i0 = i)) as [->|Hne]; [rewrite list_lookup_insert by (by eapply lookup_lt_Some); eauto|rewrite list_lookup_insert_ne by done; eauto].
    + intros i0 s0. rewrite Hput. case_decide; [|apply (ci_legal _ _ _ _ _ HC)]. subst i0. intros [= <-].
      destruct (ci_legal _ _ _ _ _ HC _ _ Hs) as (d & HL & Hd). exists d. split; [done|].
      destruct (expl_quiet (budget:=budget) (cap:=cap) _ _ HI Hq) as [[_ H]|(? & ? & ? & _)]; [|done]. by eapply same_st_trans.
  - eapply (exact_shard _ _ [] j s s'); [by rewrite app_nil_r|done|done|done|]. by apply expl_quiet.
Qed.
Lemma wild_inv dbg y : wild dbg (sys_new budget ghosts cap e) y → Reach y ∧ GInv y.
Proof.
  intros H. remember (sys_new budget ghosts cap e) as y0. induction H as [y0|y0 y1 lb y2 H IH Hs|y0 y1 y2 H IH Hs]; subst.
  - split; [apply reach_new|]. split; simpl; [by intros l [? ?%elem_of_nil]|apply proper_nil].
  - destruct (IH eq_refl) as [HR HG]. split; [by eapply (reach_step LW PI)|by eapply (ginv_step LW PI)].
  - destruct (IH eq_refl) as [HR HG]. destruct (cinv_scramble _ _ (rc_c _ HR) Hs) as [HC _].
    destruct Hs as (j & s & i & r & n & Hs & Hr & ->). split.
    + destruct HR as [_ HH HN HT]. split; [done|..].
      * destruct HH. split; simpl; [|done|done]. by rewrite insert_length.
      * destruct HN. by split.
      * destruct HT. by split.
    + by destruct HG.
Qed.
End concwild.
