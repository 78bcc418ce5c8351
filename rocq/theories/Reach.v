(* Induction over histories. *)
From Verif Require Export PropSpec UnsyncProofs.

Section reach.
Context {P : Params} (LW : Lawful P).
Notation K := (K P). Notation V := (V P). Notation RS := (RS P).
Notation shard := (shard P). Notation out := (out P). Notation cmd := (cmd P).
Implicit Types (s : shard) (k : K) (v : V) (c : contents P) (rs : RS).

Lemma run_app s h1 h2 : run s (h1 ++ h2) =
  (let! (s, os1) := run s h1 in let! (s, os2) := run s h2 in Ok (s, os1 ++ os2)).
Proof.
  revert s. induction h1 as [|m h1 IH]; intros s; simpl.
  - by destruct (run s h2) as [[??]|].
  - destruct (exec s m) as [[s1 o]|]; simpl; [|done]. rewrite IH.
    destruct (run s1 h1) as [[s2 os1]|]; simpl; [|done]. by destruct (run s2 h2) as [[??]|].
Qed.
Lemma run_snoc s h m s2 os2 : run s (h ++ [m]) = Ok (s2, os2) ↔
  ∃ s1 os o, run s h = Ok (s1, os) ∧ exec s1 m = Ok (s2, o) ∧ os2 = os ++ [o].
Proof.
  rewrite run_app. destruct (run s h) as [[s1 os]|]; simpl; [|split; [done|by intros (?&?&?&?&?)]].
  destruct (exec s1 m) as [[s3 o]|] eqn:He; simpl.
  - split.
    + intros [= <- <-]. by exists s1, os, o.
    + intros (s1' & os' & o' & [= <- <-] & He' & ->). rewrite He in He'. by injection He' as <- <-.
  - split; [done|]. intros (s1' & os' & o' & [= <- <-] & He' & ->). by rewrite He in He'.
Qed.
Lemma exec_step s m o s' : Inv s → exec s m = Ok (s', o) → step_ok s m o s'.
Proof. intros HI He. pose proof (exec_spec LW s m HI) as H. rewrite He in H. exact H. Qed.

Lemma history_ind (budget ghosts cap : N) (Q : list cmd → list out → shard → Prop) :
  Q [] [] (sh_new budget ghosts cap) →
  (∀ h os s m o s', history budget ghosts cap h os s → Inv s → cfg s = (budget, cap, ghosts) → Q h os s →
     exec s m = Ok (s', o) → step_ok s m o s' → does cap budget (sh_iter s) m o (sh_iter s') → Q (h ++ [m]) (os ++ [o]) s') →
  ∀ h os s, history budget ghosts cap h os s → Inv s ∧ cfg s = (budget, cap, ghosts) ∧ Q h os s.
Proof.
  intros H0 Hstep h. induction h as [|m h IH] using rev_ind; intros os s H; unfold history in H.
  - simpl in H. injection H as <- <-. split; [apply sh_new_inv|done].
  - apply run_snoc in H as (s1 & os1 & o & H1 & He & ->). destruct (IH _ _ H1) as (HI & Hc & HQ).
    pose proof (exec_step _ _ _ _ HI He) as Hs. split; [by apply Hs|]. split.
    + by rewrite (st_cfg _ _ _ _ Hs).
    + eapply Hstep; try done. pose proof (st_does _ _ _ _ Hs) as Hd. unfold cfg in Hc. injection Hc as H1' H2 H3. by rewrite H1', H2 in Hd.
Qed.
Lemma history_inv budget ghosts cap h os s : history budget ghosts cap h os s → Inv s ∧ cfg s = (budget, cap, ghosts).
Proof.
  intros H. destruct (history_ind budget ghosts cap (λ _ _ _, True)) with (h := h) (os := os) (s := s) as (A & B & _); done.
Qed.
(* one more call *)
Lemma history_step budget ghosts cap h os s m s' o :
  history budget ghosts cap h os s → exec s m = Ok (s', o) →
  step_ok s m o s' ∧ Inv s ∧ does cap budget (sh_iter s) m o (sh_iter s').
Proof.
  intros H He. destruct (history_inv _ _ _ _ _ _ H) as [HI Hc]. pose proof (exec_step _ _ _ _ HI He) as Hs.
  split_and!; try done. pose proof (st_does _ _ _ _ Hs) as Hd. unfold cfg in Hc. injection Hc as H1 H2 H3. by rewrite H1, H2 in Hd.
Qed.
End reach.
