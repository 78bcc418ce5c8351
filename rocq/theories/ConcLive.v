(* Locks are taken in order, somebody can always move, and agents left alone come to rest. *)
From stdpp Require Import prelude list functions.
From Verif Require Export ConcFill.

Section conclive.
Context {P : Params} (LW : Lawful P) (PI : ptr_ids P = true).
Context {budget ghosts cap e : N}.
Notation K := (K P). Notation V := (V P). Notation RS := (RS P).
Notation shard := (shard P). Notation sys := (sys P). Notation pc := (pc P). Notation agent := (agent P).
Notation CInv := (CInv budget ghosts cap e). Notation Reach := (@Reach P (full P) budget ghosts cap e).
Implicit Types (s : shard) (k : K) (v : V) (rs : RS) (p : plh) (a b : nat) (l : loc) (j : nat) (y : sys) (x : pc) (ag : agent).
Implicit Types (c : call P) (h : list (cevent P)) (g es : list (nat * cevent P)).

(* ---- the order of the locks ---- *)
Lemma lock_order a x w z : wants a x = Some w → z ∈ holds a x → lock_rank z.1 < lock_rank w.1.
Proof.
  assert (∀ (z : lock * lmode) j sm, z ∈ s_holds j sm → z.1 = LShard j) as Hs.
  { intros z' j sm. destruct sm; simpl; try (by intros ?%elem_of_nil); by intros ->%elem_of_list_singleton. }
  intros Hw Hz. destruct x; simpl in *; try discriminate Hw; try (by apply elem_of_nil in Hz);
    try (injection Hw as <-; apply elem_of_list_singleton in Hz as ->; simpl; lia).
  - injection Hw as <-. rewrite (Hs _ _ _ Hz). simpl. lia.
  - destruct ws as [|[b [|]] ws]; try done. injection Hw as <-. destruct nm; simpl in Hz.
    + apply elem_of_list_singleton in Hz as ->. simpl. lia.
    + apply elem_of_cons in Hz as [->|Hz]; [simpl; lia|]. apply elem_of_list_singleton in Hz as ->. simpl. lia.
Qed.
Lemma holder_acts dbg y a ag z : z ∈ holds a (a_pc ag) → wants a (a_pc ag) = None → act dbg y a ag ≠ None.
Proof.
  unfold act. destruct (a_pc ag); simpl; try done; try (by intros ?%elem_of_nil).
  - destruct ws as [|[b [|]] ws]; [by destruct nm|done|done].
Qed.
Lemma not_free y w : free y w = false → ∃ b bg z, y_agents y !! b = Some bg ∧ z ∈ holds b (a_pc bg) ∧ compat w z = false.
Proof.
  unfold free. intros H. rewrite <-not_true_iff_false in H.
  destruct (decide (Exists (λ '(b, bg), Exists (λ z, compat w z = false) (holds b (a_pc bg))) (imap pair (y_agents y)))) as [Hx|Hx].
  - apply Exists_exists in Hx as ([b bg] & Hin & Hz). apply Exists_exists in Hz as (z & Hz & Hc). exists b, bg, z. split_and!; try done.
    apply elem_of_lookup_imap in Hin as (i & bg' & [= -> ->] & Hl). done.
  - destruct H. apply forallb_forall. intros [b bg] Hin. apply forallb_forall. intros z Hz. destruct (compat w z) eqn:Hc; [done|].
    destruct Hx. apply Exists_exists. exists (b, bg). split; [by apply elem_of_list_In|]. apply Exists_exists. exists z. split; [by apply elem_of_list_In|done].
  Unshelve. all: try (intros [? ?]; apply _).
Qed.
Lemma compat_lock w z : compat w z = false → w.1 = z.1.
Proof. unfold compat. by case_decide. Qed.
(* the holder of a lock can move, or waits for somebody who can *)
Lemma blocked_by dbg y n : ∀ a ag w, y_agents y !! a = Some ag → wants a (a_pc ag) = Some w → 3 - lock_rank w.1 ≤ n → free y w = false →
  ∃ b bg, y_agents y !! b = Some bg ∧ holds b (a_pc bg) ≠ [] ∧ go dbg y b ≠ None.
Proof.
  induction n as [|n IH]; intros a ag w Ha Hw Hn Hf; [destruct w as [[]]; simpl in Hn; lia|].
  destruct (not_free _ _ Hf) as (b & bg & z & Hb & Hz & Hc). apply compat_lock in Hc.
  destruct (wants b (a_pc bg)) as [w'|] eqn:Hw'.
  - destruct (free y w') eqn:Hf'.
    + exists b, bg. split_and!; [done|by intros E; rewrite E in Hz; apply elem_of_nil in Hz|]. unfold go. by rewrite Hb, Hw', Hf'.
    + eapply (IH b bg w'); try done. pose proof (lock_order _ _ _ _ Hw' Hz). rewrite <-Hc in *. lia.
  - exists b, bg. split_and!; [done|by intros E; rewrite E in Hz; apply elem_of_nil in Hz|]. unfold go. rewrite Hb, Hw'. by eapply holder_acts.
Qed.

(* ---- at rest ---- *)
Definition rest_pc x (tok : bool) : Prop :=
  match x with ADone _ | AGuard _ _ | FNew _ _ | FIdle _ _ _ => True | JPark _ _ _ => tok = false | _ => False end.
Lemma rest_agent dbg y a ag : at_rest dbg y → y_agents y !! a = Some ag → rest_pc (a_pc ag) (a_token ag).
Proof.
  intros Hr Ha. pose proof (Hr a) as Hg. unfold go in Hg. rewrite Ha in Hg. destruct (wants a (a_pc ag)) as [w|] eqn:Hw.
  - destruct (free y w) eqn:Hf; [done|]. destruct (blocked_by dbg y 3 a ag w Ha Hw ltac:(lia) Hf) as (b & bg & _ & _ & Hgo). by destruct (Hgo (Hr b)).
  - unfold act in Hg. destruct (a_pc ag); try done; simpl in *.
    + by destruct js.
    + by destruct (a_token ag).
    + destruct ws as [|[b [|]] ws]; [by destruct nm|done|done].
Qed.
Lemma rest_waiting dbg y l b : Reach y → at_rest dbg y → waiting (y_log y) l b → ∃ a, in_charge (y_log y) l a ∧ (guard_held y l a ∨ woken_future y l a).
Proof.
  intros HR Hrest Hb. destruct (waiting_someone _ _ _ HR Hb) as (a & Hnr & [Hc|[v Hp]]).
  - exists a. split; [done|]. apply (in_charge_iff _ _ _ HR) in Hc as [Hl [Hk|(d & t & Hd)]].
    + unfold keeps in Hk. simpl in Hk. destruct (role y l a) eqn:Er; try done;
        (destruct (role_some y l a _ Er ltac:(done)) as (ag & j & p & Ha & Hp & ->); pose proof (rest_agent _ _ _ _ Hrest Ha) as Hx; unfold rest_pc in Hx).
      * right. unfold flag in Hk. rewrite Ha in Hk. destruct (a_pc ag) eqn:Epc; try done.
        -- exfalso. pose proof (ni_token _ (rc_n _ HR) _ _ Ha) as Ht. rewrite Epc in Ht. simpl in Ht. destruct (Ht Hk) as [Ht'|(c & cg & ? & ? & ? & ? & Hcg & E)]; [congruence|].
           pose proof (rest_agent _ _ _ _ Hrest Hcg) as Hx'. by rewrite E in Hx'.
        -- injection Hp as -> -> <-. exists ag, j, p, wk. split_and!; try done. pose proof (ni_waker _ (rc_n _ HR) _ _ Ha) as Hw. rewrite Epc in Hw. simpl in Hw. by apply Hw.
      * by destruct (a_pc ag).
      * left. destruct (a_pc ag) eqn:Epc; try done. injection Hp as -> ->. exists ag, j, p. done.
    + destruct (role_some y l d _ Hd ltac:(done)) as (dg & j & p & Hdg & Hp & ->). pose proof (rest_agent _ _ _ _ Hrest Hdg) as Hx. unfold rest_pc in Hx. by destruct (a_pc dg).
  - exfalso. pose proof (hi_log _ (rc_h _ HR) _ _ Hp) as Hlt. apply lookup_lt_is_Some in Hlt as [ag Ha].
    pose proof (rest_agent _ _ _ _ Hrest Ha) as Hx. apply hist_in in Hp; [|done]. pose proof (hi_agent _ (rc_h _ HR) _ _ Ha) as Hh.
    destruct (is_done (a_pc ag)) eqn:Ed.
    + apply Hnr. destruct (a_pc ag) eqn:Epc; try done. exists r. apply hist_in; [done|]. simpl in Hh. destruct Hh as (h0 & _ & ->). apply elem_of_app. right. by left.
    + destruct (put_hist _ _ _ _ _ _ _ Hh Hp Ed) as [H|[ws H]]; unfold role_pc in H; unfold rest_pc in Hx; destruct (a_pc ag); try done; simpl in H; by case_decide.
Qed.
(* who has not returned when nothing moves: a guard, a future that was never polled or was not
   polled since it was woken, or somebody still waiting *)
Lemma rest_unreturned dbg y a ag : Reach y → at_rest dbg y → y_agents y !! a = Some ag → ¬ returned (y_log y) a →
  (∃ l, guard_held y l a) ∨ (∃ j k, a_pc ag = FNew j k) ∨ (∃ l, woken_future y l a) ∨ (∃ l, waiting (y_log y) l a).
Proof.
  intros HR Hrest Ha Hnr. pose proof (rest_agent _ _ _ _ Hrest Ha) as Hx. unfold rest_pc in Hx. destruct (a_pc ag) eqn:Epc; try done.
  - right; right; right. exists (pl j p). apply (waiting_iff _ _ _ HR). exists false. split; [eapply role_of; [done|by rewrite Epc]|].
    unfold flag. rewrite Ha. destruct (a_flag ag) eqn:Ef; [|done]. exfalso. pose proof (ni_token _ (rc_n _ HR) _ _ Ha) as Ht. rewrite Epc in Ht. simpl in Ht.
    destruct (Ht Ef) as [Ht'|(c & cg & ? & ? & ? & ? & Hcg & E)]; [congruence|]. pose proof (rest_agent _ _ _ _ Hrest Hcg) as Hx'. by rewrite E in Hx'.
  - right; left. by exists j, k.
  - right; right. destruct (a_flag ag) eqn:Ef.
    + left. exists (pl j p). exists ag, j, p, wk. split_and!; try done. pose proof (ni_waker _ (rc_n _ HR) _ _ Ha) as Hw. rewrite Epc in Hw. simpl in Hw. by apply Hw.
    + right. exists (pl j p). apply (waiting_iff _ _ _ HR). exists true. split; [eapply role_of; [done|by rewrite Epc]|]. unfold flag. by rewrite Ha.
  - left. exists (pl j p), ag, j, p. done.
  - destruct Hnr. exists r. pose proof (hi_agent _ (rc_h _ HR) _ _ Ha) as Hh. rewrite Epc in Hh. simpl in Hh. destruct Hh as (h0 & _ & Eh).
    apply hist_in; [done|]. rewrite Eh. apply elem_of_app. right. by left.
Qed.

End conclive.

Section concrest.
Context {P : Params} (LW : Lawful P) (PI : ptr_ids P = true) {LG : Ledger P}.
Context {budget ghosts cap e : N}.
Notation K := (K P). Notation V := (V P). Notation RS := (RS P).
Notation shard := (shard P). Notation sys := (sys P). Notation pc := (pc P). Notation agent := (agent P).
Notation CInv := (CInv budget ghosts cap e). Notation Reach := (@Reach P LG budget ghosts cap e).
Implicit Types (s : shard) (k : K) (v : V) (rs : RS) (p : plh) (a b : nat) (l : loc) (j : nat) (y : sys) (x : pc) (ag : agent).
Implicit Types (c : call P) (h : list (cevent P)) (g es : list (nat * cevent P)).
(* ---- agents left alone come to rest ---- *)
Definition pc_rank x : nat :=
  match x with
  | PWant _ _ => 2 | PIn _ _ => 1
  | PAll _ js => 2 * length js + 1 | PAllIn _ _ js => 2 * length js + 2
  | GWant _ _ _ => 38 | GIn _ _ _ => 37 | GBump _ _ _ _ => 36 | GHit _ _ _ => 1 | GMiss _ _ _ => 35
  | JWant _ _ _ => 34 | JIn _ _ _ => 33 | JPush _ _ _ => 32 | JPushIn _ _ _ => 31
  | SWant _ _ _ => 17 | SIn _ _ _ => 16
  | JStart _ _ _ => 24 | JPark _ _ _ => 23 | JChk _ _ _ => 25 | JElapsed _ _ _ _ => 24 | JTime _ _ => 22 | JTimeIn _ _ => 21
  | JRe _ _ => 20 | JReS _ _ => 19 | JReIn _ _ => 18
  | FNew _ _ => 0 | FIdle _ _ _ => 0 | FPoll _ _ _ => 22 | FPollIn _ _ _ => 21
  | FDrop _ _ => 20 | FDropS _ _ => 19 | FDropIn _ _ => 18
  | AGuard _ _ => 0 | IWant _ _ _ _ _ => 7 | IIn _ _ _ _ _ => 6
  | NGo _ _ _ _ => 5 | NUnpark _ _ _ _ _ => 9 | NTask _ _ _ _ _ => 4
  | FillWant _ _ _ _ _ _ => 3 | FillIn _ _ _ _ _ _ => 2
  | DWant _ _ => 12 | DS _ _ => 11 | DIn _ _ => 10
  | ADone _ => 0
  end.
(* what an agent can still do, a park token, and what notifying it takes *)
Definition mass ag : nat :=
  pc_rank (a_pc ag) + (if a_token ag then 3 else 0) + (if is_wait (a_pc ag) && negb (a_flag ag) then 6 else 0).
Definition total y : nat := sum_list (mass <$> y_agents y).
Lemma sum_alter (f : agent → agent) a ag (ags : list agent) : ags !! a = Some ag →
  sum_list (mass <$> alter f a ags) + mass ag = sum_list (mass <$> ags) + mass (f ag).
Proof.
  revert a. induction ags as [|bg ags IH]; intros a Ha; [done|]. destruct a as [|a]; simpl in *.
  - injection Ha as ->. lia.
  - specialize (IH a Ha). unfold alter, fmap in IH. lia.
Qed.
Lemma rank_enter a x w : wants a x = Some w → pc_rank (entered x) < pc_rank x.
Proof. destruct x; try done; simpl; try lia; [destruct js; [done|]; simpl; lia|]. destruct ws as [|[b [|]] ws]; try done. simpl; lia. Qed.
Lemma starts_rank dbg sm j p x' h : starts dbg sm j p x' h → pc_rank x' ≤ 17 ∧ is_wait x' = false.
Proof. intros [H|H]; [simpl; split; [lia|done]|]. destruct sm; simpl; split; (lia || done). Qed.
Lemma wait_note j p b ws nm : is_wait (P:=P) (NGo j p ws nm) = false ∧ is_wait (P:=P) (NUnpark j p b ws nm) = false ∧ is_wait (P:=P) (NTask j p b ws nm) = false.
Proof. unfold is_wait. destruct nm; simpl; [done|]. by destruct ws. Qed.
Lemma go_decreases dbg y y' a : Reach y → cstep dbg y (Go a) = Some (Ok y') → total y' < total y.
Proof.
  intros HR Hs. apply (cstep_stepped LW PI _ _ _ _ (rc_c _ HR)) in Hs. remember (Go a) as lb eqn:El.
  destruct Hs as [b ag x' es us Ha M Hmv|lb b ag x' es Ha X Hmv|c x Hx ->|d ->]; [| |done|done].
  2: { destruct X; done. }
  injection El as ->. unfold total. rewrite (md_agents _ _ _ _ _ _ Hmv).
  assert (∀ b, EvNote b ∈ es → ∃ bg, y_agents y !! b = Some bg ∧ b ≠ a ∧ is_wait (a_pc bg) = true ∧ a_flag bg = false) as Hnote.
  { intros b Hin. destruct (note_target _ _ _ _ _ _ _ _ (rc_c _ HR) Ha M Hin) as (l & t & bg & Hb & Hr & Hf & _ & Hne & _).
    exists bg. split_and!; try done. by eapply is_wait_role. }
  assert (us = [] → mass (set_apc x' ag) < mass ag → sum_list (mass <$> alter (set_apc x') a (effs us (y_agents y))) < sum_list (mass <$> y_agents y)) as Hnil.
  { intros -> Hlt. simpl. pose proof (sum_alter (set_apc x') a ag _ Ha). lia. }
  assert (∀ u, us = [(a, u)] → mass (set_apc x' (apply_eff u ag)) < mass ag → sum_list (mass <$> alter (set_apc x') a (effs us (y_agents y))) < sum_list (mass <$> y_agents y)) as Hown.
  { intros u -> Hlt. unfold effs. simpl. rewrite <-list_alter_compose. pose proof (sum_alter (set_apc x' ∘ apply_eff u) a ag _ Ha) as H. simpl in H. lia. }
  assert (∀ u b bg, us = [(b, u)] → b ≠ a → y_agents y !! b = Some bg → mass (set_apc x' ag) + mass (apply_eff u bg) < mass ag + mass bg →
    sum_list (mass <$> alter (set_apc x') a (effs us (y_agents y))) < sum_list (mass <$> y_agents y)) as Hoth.
  { intros u b bg -> Hne Hb Hlt. unfold effs. simpl. pose proof (sum_alter (apply_eff u) b bg _ Hb) as H1.
    assert (alter (apply_eff u) b (y_agents y) !! a = Some ag) as Ha' by (by rewrite list_lookup_alter_ne).
    pose proof (sum_alter (set_apc x') a ag _ Ha') as H2. lia. }

  remember (a_pc ag) as x eqn:Epc.
  assert (∀ x0, x = x0 → is_wait x' = is_wait x0 ∨ is_wait x' = false → pc_rank x' < pc_rank x0 → mass (set_apc x' ag) < mass ag) as Hsimple.
  { intros x0 <- Hw Hlt. unfold mass. simpl. rewrite <-Epc. destruct Hw as [-> | ->]; [lia|]. simpl. destruct (is_wait x && negb (a_flag ag)); lia. }
  destruct M as
    [x w Hw Hf|j m o|m|m j js|j k gc i v x0 Hx0|j k gc|j i v gc|j v gc r Hr|j k|j k to|j k wk
    |j k md v|j k md p x0 es0 Hs|j k md p|j p sm|j p md Hl|j p md v Hl|j p to|j p tm Ht|j p tm Hf|j p Hf
    |j p st to d Hf|j p st to Hlt|j p st to Hle|j p Hf|j p Hf Hin|j p x0 es0 Hl Hs|j p v Hl|j p wk Hf|j p wk Hf
    |j p x0 es0 Hf Hl Hs|j p Hf Hl|j p Hf Hin|j p rs v wl ws ref Hws|j p rs v wl ref|j p|j p b ws nm|j p b ws nm|j p b ws nm
    |j p rs v wl ref o|j p rs v wl ref|j p w Hl Hld|j p Hl];
    try (apply Hnil; [done|]; eapply Hsimple; [reflexivity|by right|simpl; lia]);
    try (apply Hnil; [done|]; eapply Hsimple; [reflexivity|by left|simpl; lia]).
  - apply Hnil; [done|]. eapply Hsimple; [reflexivity| |by apply (rank_enter _ _ _ Hw)]. left. by apply (entered_wait _ _ _ Hw).
  - apply Hnil; [done|]. eapply Hsimple; [reflexivity|right; by destruct Hx0 as [-> | ->]|]. destruct Hx0 as [-> | ->]; simpl; lia.
  - apply starts_rank in Hs as [H1 H2]. apply Hnil; [done|]. eapply Hsimple; [reflexivity|by right|simpl; lia].
  - apply Hnil; [done|]. eapply Hsimple; [reflexivity|right; by destruct sm|]. destruct sm; simpl; lia.
  - (* push *) unfold waiting_us. destruct md as [to|wk].
    + apply (Hown (UFlag false)); [done|]. unfold mass. rewrite <-Epc. simpl. destruct to; simpl; destruct (a_token ag); lia.
    + unfold effs, waiting_us. simpl. rewrite <-!list_alter_compose. pose proof (sum_alter (set_apc (FIdle j p wk) ∘ (set_waker wk ∘ set_flag false)) a ag _ Ha) as H.
      unfold compose in *. unfold mass in H at 2 4. simpl in H. rewrite <-Epc in H. simpl in H. destruct (a_token ag); lia.
  - (* unparked *) apply (Hown (UToken false)); [done|]. unfold mass. rewrite <-Epc. simpl. rewrite Ht. destruct (a_flag ag); simpl; lia.
  - apply starts_rank in Hs as [H1 H2]. apply Hnil; [done|]. eapply Hsimple; [reflexivity|by right|simpl; lia].
  - apply (Hown (UFlag false)); [done|]. unfold mass. rewrite <-Epc. simpl. rewrite Hf. simpl. destruct (a_token ag); lia.
  - apply (Hown (UWaker wk)); [done|]. unfold mass. rewrite <-Epc. simpl. destruct (a_token ag), (a_flag ag); simpl; lia.
  - apply starts_rank in Hs as [H1 H2]. apply Hnil; [done|]. eapply Hsimple; [reflexivity|by right|simpl; lia].
  - (* note *) destruct (Hnote b) as (bg & Hb & Hne & Hw & Hf); [left|]. eapply (Hoth _ b bg); [done|done|done|].
    unfold mass. cbn [set_apc apply_eff set_flag set_woken a_pc a_token a_flag]. rewrite <-Epc, Hw, Hf.
    rewrite ?(proj1 (wait_note j p b _ nm)), ?(proj1 (proj2 (wait_note j p b ws nm))), ?(proj2 (proj2 (wait_note j p b ws nm))). simpl. destruct (a_token ag), (a_token bg); lia.
  - (* unpark *) destruct (decide (b = a)) as [->|Hne].
    + apply (Hown (UToken true)); [done|]. unfold mass. rewrite <-Epc. cbn [set_apc apply_eff set_token a_pc a_token a_flag].
      rewrite (proj1 (wait_note j p a ws nm)), (proj1 (proj2 (wait_note j p a ws nm))). simpl. destruct (a_token ag); lia.
    + destruct (y_agents y !! b) as [bg|] eqn:Hb.
      * eapply (Hoth _ b bg); [done|done|done|]. unfold mass. cbn [set_apc apply_eff set_token a_pc a_token a_flag]. rewrite <-Epc.
        rewrite (proj1 (wait_note j p b ws nm)), (proj1 (proj2 (wait_note j p b ws nm))). simpl. destruct (a_token ag), (a_token bg); lia.
      * unfold effs. simpl. assert (alter (set_token true) b (y_agents y) = y_agents y) as ->.
        { apply list_eq. intros i. destruct (decide (i = b)) as [->|]; [by rewrite list_lookup_alter, Hb|by rewrite list_lookup_alter_ne]. }
        pose proof (sum_alter (set_apc (NGo j p ws nm)) a ag _ Ha) as H. unfold mass in H at 2 4. cbn [set_apc a_pc a_token a_flag] in H. rewrite <-Epc in H.
        rewrite (proj1 (wait_note j p b ws nm)), (proj1 (proj2 (wait_note j p b ws nm))) in H. simpl in H. lia.
  - (* wake *) destruct (Hnote b) as (bg & Hb & Hne & Hw & Hf); [left|]. eapply (Hoth _ b bg); [done|done|done|].
    unfold mass. cbn [set_apc apply_eff set_flag set_woken a_pc a_token a_flag]. rewrite <-Epc, Hw, Hf.
    rewrite ?(proj1 (wait_note j p b _ nm)), ?(proj1 (proj2 (wait_note j p b ws nm))), ?(proj2 (proj2 (wait_note j p b ws nm))). simpl. destruct (a_token ag), (a_token bg); lia.
Qed.
Lemma steps_cons_go dbg y ls y' : Reach y → Forall (λ lb, ∃ a, lb = Go a) ls → steps dbg y ls y' → Reach y' ∧ length ls + total y' ≤ total y.
Proof.
  intros HR HF Hs. revert HF. induction Hs as [y|y ls y1 lb y2 Hs IH Hc]; intros HF; [split; [done|simpl; lia]|].
  apply Forall_app in HF as [HF Hg]. rewrite Forall_singleton in Hg. destruct Hg as [a ->]. destruct (IH HR HF) as [HR1 Hle].
  split; [by eapply (reach_step LW PI)|]. pose proof (go_decreases _ _ _ _ HR1 Hc). rewrite app_length. simpl. lia.
Qed.
(* somebody moves unless all are at rest; the agents that can move are found by looking at each *)
Lemma rest_or_go dbg y : at_rest dbg y ∨ ∃ a r, go dbg y a = Some r.
Proof.
  destruct (List.Exists_dec (λ a, go dbg y a ≠ None) (seq 0 (length (y_agents y)))) as [H|H].
  - intros a. destruct (go dbg y a); [left|right]; naive_solver.
  - right. apply List.Exists_exists in H as (a & _ & H). exists a. destruct (go dbg y a); [eauto|done].
  - left. intros a. destruct (go dbg y a) eqn:E; [|done]. destruct H. apply List.Exists_exists. exists a. split; [|by rewrite E].
    apply in_seq. assert (a < length (y_agents y)); [|lia]. apply lookup_lt_is_Some. unfold go in E. destruct (y_agents y !! a); [eauto|done].
Qed.
End concrest.
