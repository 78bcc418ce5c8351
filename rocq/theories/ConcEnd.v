(* What the theorems of PropsConcB.v need in addition. *)
From stdpp Require Import prelude list functions.
From Verif Require Export ConcLast.

Section concend.
Context {P : Params} (LW : Lawful P) (PI : ptr_ids P = true).
Context {budget ghosts cap e : N}.
Notation K := (K P). Notation V := (V P). Notation RS := (RS P).
Notation shard := (shard P). Notation sys := (sys P). Notation pc := (pc P). Notation agent := (agent P).
Notation CInv := (CInv budget ghosts cap e). Notation Reach := (@Reach P (full P) budget ghosts cap e).
Implicit Types (s : shard) (k : K) (v : V) (rs : RS) (p : plh) (a b : nat) (l : loc) (j : nat) (y : sys) (x : pc) (ag : agent).
Implicit Types (c : call P) (h : list (cevent P)) (g es : list (nat * cevent P)).

Lemma inv_ghosts s (n : N) : Inv s → sh_cap_nr s = n → (N.of_nat (length (remembered s)) ≤ n)%N.
Proof.
  intros (rs & fl & HI) <-. pose proof (i_ghost _ _ _ HI) as Hg. rewrite (acc_g _ _ (i_acc _ _ _ HI)) in Hg.
  etrans; [|exact Hg]. clear. apply N.eq_le_incl. unfold remembered. rewrite slab_iter_items. fold (its_of s).
  induction (its_of s) as [|o l IH]; [done|]. unfold esum in *.
  destruct o as [[r|p|h]|]; csimpl; cbn [List.filter length]; rewrite <-?IH; unfold ghn; lia.
Qed.
Lemma reach_sound y j s : Reach y → shard_at y j = Some s → sound budget ghosts cap s.
Proof.
  intros HR Hs. destruct (ci_inv _ _ _ _ _ (rc_c _ HR) j s Hs) as [HI Hcf]. unfold cfg in Hcf. injection Hcf as E1 E2 E3. split.
  - intros i i' z z'. apply (ukeys_lookup LW). by apply (inv_ukeys LW).
  - intros k. unfold u_peek. by rewrite (sh_peek_spec LW s k HI).
  - by apply len_exact.
  - by apply weight_exact.
  - intros Hb. by eapply conc_uwsum.
  - by apply inv_ghosts.
Qed.
Lemma fails_spelled dbg y lb f : Reach y → cstep dbg y lb = Some (Fail f) → runs_out budget cap y lb f.
Proof.
  intros HR Hc. destruct (cstep_fails LW PI _ _ _ _ HR Hc) as (a & ag & j & s & z & -> & Ha & Hz & Hs & Hf).
  destruct (ci_inv _ _ _ _ _ (rc_c _ HR) j s Hs) as [HI Hcf]. unfold cfg in Hcf. injection Hcf as E1 E2 E3.
  exists a, ag, j, s. split; [done|]. split; [done|]. split; [done|].
  assert (∀ n, (two32 ≤ used s + n → two32 ≤ storage s + n)%N) as Hst by (intros n; pose proof (used_slots s); rewrite storage_slots; lia).
  destruct f; simpl in Hf; try done.
  - left. split; [done|]. apply Hst. by destruct z.
  - right. split; [done|]. rewrite E1, E2 in Hf. destruct z as [m|k|rs p ref v wl|p]; try done.
    + left. exists m. split; [|done]. pose proof (rc_h _ HR) as HH. pose proof (hi_agent _ HH _ _ Ha) as Hh.
      destruct (a_pc ag) eqn:Epc; simpl in Hz; try done; injection Hz as <- <-; simpl in Hh; [by destruct Hh as (? & ? & _)|by destruct Hh].
    + right. destruct Hf as (k & Hk & Ho). exists p, rs, v, wl, ref, k. destruct (ci_legal _ _ _ _ _ (rc_c _ HR) j s Hs) as (d & HL & _ & Hpd & _).
      split; [|split; [|done]]; [|apply (pi_key _ _ (pinv LW _ _ HL)); by rewrite Hpd]. destruct (a_pc ag); simpl in Hz; try done. by injection Hz as -> -> -> -> -> ->.
Qed.
(* a step of get, under the shard's read lock *)
Lemma get_hot dbg y a ag y' : Reach y → y_agents y !! a = Some ag →
  (∃ j k gc, a_pc ag = GIn j k gc) ∨ (∃ j i v gc, a_pc ag = GBump j i v gc) ∨ (∃ j v gc, a_pc ag = GHit j v gc) ∨ (∃ j k gc, a_pc ag = GMiss j k gc) →
  cstep dbg y (Go a) = Some (Ok y') → same_but_hot (y_cache y) (y_cache y').
Proof.
  intros HR Ha Hp Hc. simpl in Hc. unfold go in Hc. rewrite Ha in Hc.
  destruct Hp as [(j & k & c & E)|[(j & i & v & c & E)|[(j & v & c & E)|(j & k & c & E)]]]; rewrite E in Hc; cbn [wants] in Hc; unfold act in Hc; rewrite E in Hc; injection Hc as Hc.
  - left. unfold get_found in Hc. destruct (read_shard y j) as [s|]; [|done]. cbn in Hc. destruct (search_resident s (hash P k) k) as [[[i r]|]|]; try done; cbn in Hc; by injection Hc as <-.
  - right. unfold read_shard in Hc. destruct (sc_shards (y_cache y) !! j) as [s|] eqn:Es; [|done]. cbn in Hc. unfold fetch_add in Hc.
    destruct (entry_at s i) as [[r| |]|] eqn:Er; try done. cbn in Hc. injection Hc as <-. exists j, s. split; [done|]. left. by exists i, r, ((r_ref r + 1) mod 65536)%N.
  - right. unfold get_hit, read_shard in Hc. destruct (sc_shards (y_cache y) !! j) as [s|] eqn:Es; [|done]. cbn in Hc. injection Hc as <-. exists j, s. auto.
  - right. unfold get_miss, read_shard in Hc. destruct (sc_shards (y_cache y) !! j) as [s|] eqn:Es; [|done]. cbn in Hc. injection Hc as <-. exists j, s.
    split; [done|]. right; right. by destruct c.
Qed.
(* insert on a guard returned *)
Lemma put_returns y a l v r : Reach y → (a, EvPut l v) ∈ y_log y → (a, EvRet r) ∈ y_log y →
  ∃ rs wl, (r = RetStale v ∧ (a, EvSec l.1 (OFill rs l.2 v wl) (SStale v)) ∈ y_log y) ∨
           (∃ o, r = RetOut o ∧ (a, EvSec l.1 (OFill rs l.2 v wl) (SO o)) ∈ y_log y).
Proof.
  intros HR Hp Hr. destruct (returned_done _ _ HR (ex_intro _ r Hr)) as (ag & r' & Ha & _ & Hr' & h & HL & Hh).
  assert (r' = r) as -> by (by eapply (returned_unique _ _ _ _ HR)).
  assert (EvPut l v ∈ h) as Hin.
  { assert (EvPut l v ∈ hist (y_log y) a) as H by (by apply (hist_in _ _ (EvPut l v) eq_refl)). rewrite Hh in H. apply elem_of_app in H as [H|H]; [done|]. by apply elem_of_list_singleton in H. }
  assert (∀ ev, ev ∈ h → not_note ev = true → (a, ev) ∈ y_log y) as Hback.
  { intros ev H Hn. apply (hist_in _ _ _ Hn). rewrite Hh. apply elem_of_app. by left. }
  assert (∀ j c k id h0, guarded (P:=P) j c k id h0 → EvPut l v ∉ h0) as Hg.
  { intros j c k id h0 G H. destruct G; unfold began, queued, asked in H; simpl in H; repeat (apply elem_of_cons in H as [H|H]; [done|]); by apply elem_of_nil in H. }
  assert (∀ j id h0, dropped (P:=P) j id h0 → EvPut l v ∉ h0) as Hd.
  { intros j id h0 G H. destruct G; repeat (apply elem_of_cons in H as [H|H]; [done|]); by apply elem_of_nil in H. }
  destruct HL; try (exfalso; unfold queued, asked in Hin; simpl in Hin; repeat (apply elem_of_cons in Hin as [Hin|Hin]; [done|]); first [by apply elem_of_nil in Hin|by eapply Hd]).
  - exfalso. apply elem_of_cons in Hin as [Hin|Hin]; [done|]. apply elem_of_list_fmap in Hin as (? & ? & _). done.
  - apply elem_of_app in Hin as [Hin|Hin]; [by destruct (Hg _ _ _ _ _ H0 Hin)|]. apply elem_of_cons in Hin as [[= -> ->]|Hin].
    + exists rs, wl. right. exists o. split; [done|]. apply Hback; [|done]. apply elem_of_app. right; right; left.
    + by apply elem_of_list_singleton in Hin.
  - apply elem_of_app in Hin as [Hin|Hin]; [by destruct (Hg _ _ _ _ _ H0 Hin)|]. apply elem_of_cons in Hin as [[= -> ->]|Hin].
    + exists rs, wl. left. split; [done|]. apply Hback; [|done]. apply elem_of_app. right; right; left.
    + by apply elem_of_list_singleton in Hin.
  - exfalso. apply elem_of_app in Hin as [Hin|Hin]; [by eapply Hg|by eapply Hd].
Qed.
End concend.
