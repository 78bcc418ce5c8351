(* The work of evictions is paid for by the calls before them: every item an eviction looks at
   leaves the lists the hands walk, or loses one of the at most two uses it is remembered by. *)
From Verif Require Export ScanProofs CrashProofs Work.
From Verif Require Import SyncShard SyncCrashProofs ConcPanic.

Section workproofs.
Context {P : Params} (LW : Lawful P) (NP : ∀ k v, pinned P k v = false).
Context (f : point → bool) (c : N).
Notation K := (K P). Notation V := (V P). Notation RS := (RS P).
Notation shard := (shard P). Notation resident := (resident P). Notation entry := (entry P).
Notation M := (M (P:=P)).
Notation "'let*' x := m 'in' k" := (Crash.mbind m (λ x, k))
  (at level 200, x pattern, m at level 100, k at level 200, right associativity).
Implicit Types (s : shard) (l : lcs P) (k : K) (v : V) (r : resident) (e : entry) (its : list (option entry)).

Definition κ (p : point) : N := if f p then 1 else 0.
Context (free : ∀ p, handles p = false → f p = false).
Context (cold_pays : (κ PPinned + κ PWeigh + κ PBefore + κ PReweigh + κ PEvHash + κ PColdEvict ≤ c)%N).
Context (hot_pays : (κ PPinned + κ PWeigh + κ PBefore + κ PReweigh + κ PEvHash + κ PHotEvict ≤ c)%N).
Lemma κ1 p : (κ p ≤ 1)%N.
Proof. unfold κ. destruct (f p); lia. Qed.
Lemma κ0 p : handles p = false → κ p = 0%N.
Proof. intros H. unfold κ. by rewrite free. Qed.

(* ---- the potential ---- *)
Definition pay r : N :=
  if (rweight r =? 0)%N then 0
  else (c + N.min (r_ref r) 2 + match r_state r with Cold => if (2 <? r_ref r)%N then 1 else 0 | Hot => 0 end)%N.
Definition epay e : N := match e with Resident r => pay r | _ => 0 end.
Definition Φ s : N := esum epay (its_of s).
Definition top : N := (c + 3)%N.
Lemma pay_top r : (pay r ≤ top)%N.
Proof. unfold pay, top. destruct (_ =? _)%N; [lia|]. destruct (r_state r); [|destruct (_ <? _)%N]; lia. Qed.
Lemma epay_top e : (epay e ≤ top)%N.
Proof. destruct e; simpl; [apply pay_top|lia|lia]. Qed.

(* ---- the budget of a computation ---- *)
Definition cost (tr : list (point * shard)) : N := count f tr.
Lemma cost_cons p s tr : cost ((p, s) :: tr) = (κ p + cost tr)%N.
Proof. unfold cost, κ. simpl. destruct (f p); lia. Qed.
Lemma cost_app t1 t2 : cost (t1 ++ t2) = (cost t1 + cost t2)%N.
Proof. induction t1 as [|[p s] t1 IH]; [done|]. rewrite <-app_comm_cons, !cost_cons, IH. lia. Qed.
Definition cw {A} (n : N) (m : M A) (q : A → N) : Prop :=
  (cost m.1 + match m.2 with Ok a => q a | Fail _ => 0 end ≤ n)%N.
Lemma cw_ok {A} n (a : A) q : (q a ≤ n)%N → cw n (lift (Ok a)) q.
Proof. unfold cw. simpl. unfold cost. simpl. lia. Qed.
Lemma cw_fail {A} n (e : fail) (q : A → N) : cw n (lift (Fail e)) q.
Proof. unfold cw. simpl. unfold cost. simpl. lia. Qed.
Lemma cw_lift {A} n (r : res A) (q : A → N) : (∀ a, r = Ok a → (q a ≤ n)%N) → cw n (lift r) q.
Proof. destruct r; intros H; [apply cw_ok; by apply H|apply cw_fail]. Qed.
Lemma cw_bind {A C} n (m : M A) (g : A → M C) q1 q : cw n m q1 → (∀ a, m.2 = Ok a → cw (q1 a) (g a) q) → cw n (Crash.mbind m g) q.
Proof.
  unfold cw, Crash.mbind. destruct m as [t [a|e]]; simpl; [|done]. intros H1 H2. specialize (H2 a eq_refl). rewrite cost_app. lia.
Qed.
Lemma cw_bind_lift {A C} n (r : res A) (g : A → M C) q : (∀ a, r = Ok a → cw n (g a) q) → cw n (Crash.mbind (lift r) g) q.
Proof. intros H. apply (cw_bind _ _ _ (λ _, n)); [apply cw_lift; intros; lia|exact H]. Qed.
Lemma cw_bind_pt {A} n p s (g : () → M A) q : (κ p ≤ n)%N → cw (n - κ p) (g ()) q → cw n (Crash.mbind (pt p s) g) q.
Proof.
  unfold cw, Crash.mbind, pt. cbn [fst snd]. rewrite cost_app, cost_cons. change (cost []) with 0%N.
  destruct (g ()).2; cbn; lia.
Qed.
Lemma cw_bind_free {A} n p s (g : () → M A) q : handles p = false → cw n (g ()) q → cw n (Crash.mbind (pt p s) g) q.
Proof. intros H Hg. pose proof (κ0 _ H). apply cw_bind_pt; [lia|]. by replace (n - κ p)%N with n by lia. Qed.
Lemma cw_mono {A} n n' (m : M A) (q q' : A → N) : cw n m q → (n ≤ n')%N → (∀ a, m.2 = Ok a → (q' a ≤ q a)%N) → cw n' m q'.
Proof. unfold cw. intros H Hn Hq. destruct m as [t [a|e]]; simpl in *; [|lia]. specialize (Hq a eq_refl). lia. Qed.
Lemma cw_assoc {A C D} n (m : M A) (g : A → M C) (h : C → M D) q :
  cw n (Crash.mbind m (λ a, mbind (g a) h)) q → cw n (Crash.mbind (Crash.mbind m g) h) q.
Proof.
  unfold cw, Crash.mbind. destruct m as [t [a|e]]; simpl; [|done]. destruct (g a) as [t' [x|e]]; simpl; [|done]. by rewrite (assoc_L (++)).
Qed.

(* ---- the items ---- *)
Lemma its_put s t e : its_of (set_entry s t e) = <[t := Some e]> (its_of s).
Proof.
  destruct (decide (t < length (its_of s))) as [H|H]; [by apply its_set|].
  rewrite list_insert_ge by lia. unfold its_of, items in *. rewrite fmap_length in H.
  unfold set_entry, slab_set, set_ents. simpl. by rewrite lookup_ge_None_2 by lia.
Qed.
Lemma esum_put its t o : (esum epay (<[t := o]> its) ≤ esum epay its + oget epay o)%N.
Proof.
  destruct (its !! t) as [o0|] eqn:E.
  - pose proof (esum_insert epay its t o0 o E). lia.
  - rewrite list_insert_ge by (by apply lookup_ge_None). lia.
Qed.
Lemma Φ_put s s' t e : its_of s' = <[t := Some e]> (its_of s) → (Φ s' ≤ Φ s + epay e)%N.
Proof. intros E. unfold Φ. rewrite E. apply (esum_put _ t (Some e)). Qed.
Lemma Φ_swap s s' t e0 o : its_of s !! t = Some (Some e0) → its_of s' = <[t := o]> (its_of s) →
  (Φ s' + epay e0 = Φ s + oget epay o)%N.
Proof. intros H E. unfold Φ. rewrite E. apply (esum_insert epay _ t (Some e0) o H). Qed.
Lemma Φ_ge s t e : its_of s !! t = Some (Some e) → (epay e ≤ Φ s)%N.
Proof. apply esum_ge. Qed.
Lemma Φ_its s s' : its_of s' = its_of s → Φ s' = Φ s.
Proof. unfold Φ. by intros ->. Qed.
Lemma Φ_none s s' t : its_of s' = <[t := None]> (its_of s) → (Φ s' ≤ Φ s)%N.
Proof. intros E. unfold Φ. rewrite E. pose proof (esum_put (its_of s) t None). simpl in *. lia. Qed.
Lemma its_sub s st w s' : sub_weight s st w = Ok s' → its_of s' = its_of s.
Proof. unfold sub_weight. destruct (wsub _ _); simpl; [|done]. by intros [= <-]; destruct st. Qed.
Lemma its_add s st w s' : add_weight s st w = Ok s' → its_of s' = its_of s.
Proof. unfold add_weight. destruct (wadd _ _); simpl; [|done]. by intros [= <-]; destruct st. Qed.
Lemma its_dec s st s' : dec_num s st = Ok s' → its_of s' = its_of s.
Proof. unfold dec_num. destruct (wsub _ _); simpl; [|done]. by intros [= <-]; destruct st. Qed.
Lemma its_nnr s s' : dec_nnr s = Ok s' → its_of s' = its_of s.
Proof. unfold dec_nnr. destruct (wsub _ _); simpl; [|done]. by intros [= <-]. Qed.
Lemma its_head s st h : its_of (set_head s st h) = its_of s.
Proof. by destruct st. Qed.
Lemma its_inc s st : its_of (inc_num s st) = its_of s.
Proof. by destruct st. Qed.
Lemma its_back s st t s' : link_back s st t = Ok s' → its_of s' = its_of s.
Proof.
  unfold link_back. destruct (slab_link _ _ _) as [[es h]|] eqn:E; simpl; [|done]. intros [= <-]. rewrite its_head. by apply its_link in E.
Qed.
Lemma its_change s t w w' s' : cold_change_weight s t w w' = Ok s' → its_of s' = its_of s.
Proof.
  unfold cold_change_weight. destruct (slab_get _ _) as [[[r| |] ?]|]; try done. cbv zeta.
  destruct (sub_weight _ _ _) as [s1|] eqn:E1; cbn [rbind]; [|done]. apply its_sub in E1.
  destruct (add_weight _ _ _) as [s2|] eqn:E2; cbn [rbind]; [|done]. apply its_add in E2. rewrite <-E1, <-E2.
  destruct (_ && _).
  { destruct (slab_link _ _ _) as [[es h]|] eqn:E; cbn [rbind]; [|done]. intros [= <-]. rewrite its_head. by apply its_link in E. }
  destruct (_ && _); [|by intros [= <-]].
  destruct (slab_unlink _ _) as [[es h]|] eqn:E; cbn [rbind]; [|done]. intros [= <-]. rewrite its_head. by apply its_unlink in E.
Qed.
Lemma its_map_insert s h t s' : map_insert s h t = Ok s' → its_of s' = its_of s.
Proof. unfold map_insert. destruct (tinsert _ _ _ _ _); simpl; [|done]. by intros [= <-]. Qed.
Lemma its_new s e es i : slab_insert (sh_ents s) e = Ok (es, i) → (esum epay (items es) ≤ Φ s + epay e)%N.
Proof.
  unfold slab_insert. destruct (ents (sh_ents s) !! _) as [x|] eqn:E.
  - destruct (assert _); simpl; [|done]. intros [= <- _]. unfold Φ, its_of, items. simpl.
    rewrite list_fmap_insert. apply esum_put.
  - destruct (assert _); simpl; [|done]. destruct (_ =? _)%N; [done|]. intros [= <- _]. unfold Φ, its_of, items. simpl.
    rewrite fmap_app. simpl. rewrite esum_app. done.
Qed.

(* ---- the hands ---- *)
Ltac kk := pose proof cold_pays; pose proof hot_pays; pose proof (κ1 PPinned); pose proof (κ1 PPromote).
Lemma w_hot_evict s l t r n : its_of s !! t = Some (Some (Resident r)) → rweight r ≠ 0%N → (Φ s ≤ n + κ PPinned)%N →
  cw n (c_hot_evict s l t r) (λ a, Φ a.1.1).
Proof.
  intros Ht Hw Hn. assert (c ≤ epay (Resident r))%N as Hc.
  { simpl. unfold pay. destruct (N.eqb_spec (rweight r) 0); [done|]. lia. }
  pose proof (Φ_ge _ _ _ Ht) as Hge. kk. unfold c_hot_evict.
  apply cw_bind_pt; [lia|]. apply cw_bind_lift. intros s1 E1. apply its_sub in E1. apply cw_bind_pt; [lia|].
  destruct (call_before l (r_key r) (r_val r)) as [l1 v']. cbv zeta. set (r' := set_rval r v').
  apply cw_bind_pt; [lia|].
  assert (its_of (set_entry s1 t (Resident r')) = <[t := Some (Resident r')]> (its_of s)) as I1 by (by rewrite its_put, E1).
  destruct (N.eqb_spec (rweight r') 0) as [Hz|Hz].
  - apply cw_bind_lift. intros [es h] Eu. apply its_unlink in Eu. apply cw_ok. simpl.
    assert (Φ (set_hot (set_ents s1 es) (Acct h (a_weight (sh_hot s1)) (a_num (sh_hot s1)))) + epay (Resident r) = Φ s + epay (Resident r'))%N as HΦ.
    { apply (Φ_swap s _ t _ (Some (Resident r')) Ht). unfold its_of in *. simpl. rewrite Eu. exact I1. }
    assert (epay (Resident r') = 0%N) as Hz'. { simpl. unfold pay. by rewrite Hz. }
    match goal with |- (Φ ?x ≤ _)%N => assert (Φ x = Φ s + epay (Resident r') - epay (Resident r))%N as -> end; [|lia].
    assert (∀ a b d : N, (a + b = d → a = d - b)%N) as Hs by lia. apply Hs. rewrite <-HΦ. f_equal.
  - apply cw_bind_lift. intros s2 E2. apply its_dec in E2. apply cw_bind_pt; [lia|].
    apply cw_bind_lift. intros [es o] Er. destruct o as [[[ev| |] nx]|]; try apply cw_fail. apply its_remove in Er.
    apply cw_bind_pt; [lia|]. apply cw_bind_lift. intros s3 E3. apply its_map_remove in E3. apply cw_ok. simpl.
    assert (its_of s3 = <[t := None]> (its_of s)) as I3.
    { rewrite E3. rewrite its_head. transitivity (items es); [done|]. rewrite Er. transitivity (<[t := None]> (its_of s2)); [done|].
      rewrite E2, I1. apply list_insert_insert. }
    pose proof (Φ_swap _ _ _ _ _ Ht I3). simpl in *. lia.
Qed.
Lemma unpinned_no r : rpinned r = false.
Proof. apply NP. Qed.
Lemma pay_pass r : rweight r ≠ 0%N → r_state r = Hot → r_ref r ≠ 0%N →
  (pay (set_key_ref r (N.min (r_ref r) MAX_F - 1)) + 1 = pay r)%N.
Proof.
  intros Hw Hs Hr. unfold pay. change (rweight (set_key_ref r _)) with (rweight r). destruct (N.eqb_spec (rweight r) 0); [done|].
  change (r_state (set_key_ref r _)) with (r_state r). rewrite Hs. change (r_ref (set_key_ref r ?x)) with x. change MAX_F with 2%N. lia.
Qed.
Lemma w_hot_loop n : ∀ s l rs fl i u, Inv' s rs fl → i ∈ rs RHot →
  cw (Φ s) (c_advance_hot_loop n s l i u) (λ a, Φ a.1.1).
Proof.
  induction n as [|n IH]; intros s l rs fl i u HI Hin; simpl; [apply cw_fail|].
  destruct (inv_ring_hot _ _ _ _ HI Hin) as (r & Ht & Hst & Hw).
  apply elem_of_list_split in Hin as (A & C & HAC).
  destruct (RI_get _ _ _ _ _ _ _ (i_ri _ _ _ HI) HAC) as (e & nx & Hg & He & Hnx).
  assert (e = Resident r) as -> by (unfold its_of in Ht; congruence). clear He.
  apply cw_bind_lift. intros [e nx']. rewrite Hg. simpl. intros [= <- <-].
  apply cw_bind_lift. intros _ _. pose proof (Φ_ge _ _ _ Ht) as Hge. kk.
  assert (c ≤ epay (Resident r))%N as Hc. { simpl. unfold pay. destruct (N.eqb_spec (rweight r) 0); [done|]. lia. }
  apply cw_bind_pt; [lia|]. rewrite unpinned_no. destruct (N.eqb_spec (r_ref r) 0) as [Hr|Hr]; simpl.
  - apply w_hot_evict; [done|done|]. lia.
  - set (x := (N.min (r_ref r) MAX_F - 1)%N). destruct (ref_spec LW s rs fl i r x HI Ht) as [HI2 _].
    assert (nx ∈ rs RHot) as Hnx'.
    { rewrite HAC. assert (nx ∈ C ++ A ++ [i]) as H'. { destruct (C ++ A ++ [i]); [done|]. simpl in Hnx. injection Hnx as ->. by left. }
      rewrite !elem_of_app, elem_of_list_singleton in H'. rewrite elem_of_app, elem_of_cons. tauto. }
    eapply cw_mono; [by apply (IH _ l rs fl nx (u + 1)%N HI2)| |intros; lia].
    pose proof (Φ_swap s (set_entry s i (Resident (set_key_ref r x))) i _ _ Ht ltac:(apply its_put)) as HΦ.
    cbn [oget epay] in *. pose proof (pay_pass r Hw Hst Hr). fold x in H3. lia.
Qed.
Lemma w_hot s l : Inv s → cw (Φ s) (c_advance_hot s l) (λ a, Φ a.1.1).
Proof.
  intros (rs & fl & HI). unfold c_advance_hot. pose proof (i_heads _ _ _ HI RHot) as Hh. simpl in Hh. rewrite Hh.
  destruct (rs RHot) as [|i C] eqn:HC; simpl; [apply cw_ok; simpl; lia|]. apply (w_hot_loop _ s l rs fl); [done|]. rewrite HC. by left.
Qed.
Lemma w_trim n : ∀ s l, Inv s → cw (Φ s) (c_trim_hot n s l) (λ a, Φ a.1).
Proof.
  induction n as [|n IH]; intros s l HI; simpl; [apply cw_fail|]. destruct (_ <? _)%N; [|apply cw_ok; simpl; lia].
  eapply cw_bind; [by apply w_hot|]. intros [[s1 l1] b]. rewrite er_advance_hot. intros E.
  destruct (hot_step LW _ _ _ _ _ HI E) as [H1 H2]. destruct b; [by apply IH|apply cw_ok; simpl; lia].
Qed.
Lemma its_promote s t r s2 : promote_link s t r = Ok s2 → its_of s2 = its_of s.
Proof.
  unfold promote_link. cbv zeta.
  destruct (add_weight _ _ _) as [s1|] eqn:E1; cbn [rbind]; [|done]. apply its_add in E1.
  destruct (sub_weight _ _ _) as [s3|] eqn:E2; cbn [rbind]; [|done]. apply its_sub in E2.
  destruct (dec_num _ _) as [s4|] eqn:E3; cbn [rbind]; [|done]. apply its_dec in E3. rewrite its_inc in E3.
  destruct (slab_unlink _ _) as [[es h]|] eqn:E4; cbn [rbind]; [|done]. apply its_unlink in E4.
  destruct (slab_link _ _ _) as [[es2 h2]|] eqn:E5; cbn [rbind]; [|done]. apply its_link in E5. intros [= <-].
  rewrite <-E1, <-E2, <-E3. unfold its_of in *. simpl in *. congruence.
Qed.
Lemma w_promote s l rs fl idx r A C :
  Inv' s rs fl → rs RCold = A ++ idx :: C → its_of s !! idx = Some (Some (Resident r)) → r_state r = Cold →
  rweight r ≠ 0%N → r_ref r ≠ 0%N → cw (Φ s) (c_cold_promote s l idx r) (λ a, Φ a.1.1).
Proof.
  intros HI HAC Ht Hst Hw Hr. unfold c_cold_promote. cbv zeta. set (r' := set_rstate (set_key_ref r (r_ref r - 1)) Hot).
  kk. pose proof (Φ_ge _ _ _ Ht) as Hge.
  assert (pay r' + 1 = pay r)%N as Hp.
  { unfold pay, r'. change (rweight (set_rstate (set_key_ref r _) Hot)) with (rweight r). destruct (N.eqb_spec (rweight r) 0); [done|].
    rewrite Hst. simpl. destruct (N.ltb_spec 2 (r_ref r)); lia. }
  pose proof (Φ_swap s (set_entry s idx (Resident r')) idx _ _ Ht ltac:(apply its_put)) as HΦ. cbn [oget epay] in HΦ, Hge.
  apply cw_bind_pt; [lia|]. apply cw_bind_lift. intros s2 E.
  destruct (promote_link_spec LW s l rs fl idx r A C s2 HI HAC Ht E) as [HI2 _].
  apply its_promote, Φ_its in E. eapply cw_bind; [eapply cw_mono; [by apply w_trim| |intros; reflexivity]; lia|].
  intros [s3 l3] _. apply cw_ok. simpl. lia.
Qed.
Lemma w_cold_evict s l t r n : its_of s !! t = Some (Some (Resident r)) → rweight r ≠ 0%N → (Φ s ≤ n + κ PPinned)%N →
  cw n (c_cold_evict s l t r) (λ a, Φ a.1.1).
Proof.
  intros Ht Hw Hn. assert (c ≤ epay (Resident r))%N as Hc.
  { simpl. unfold pay. destruct (N.eqb_spec (rweight r) 0); [done|]. lia. }
  pose proof (Φ_ge _ _ _ Ht) as Hge. kk. unfold c_cold_evict.
  apply cw_bind_pt; [lia|]. apply cw_bind_lift. intros s1 E1. apply its_sub in E1. apply cw_bind_pt; [lia|].
  destruct (call_before l (r_key r) (r_val r)) as [l1 v']. cbv zeta. set (r' := set_rval r v').
  apply cw_bind_pt; [lia|].
  assert (its_of (set_entry s1 t (Resident r')) = <[t := Some (Resident r')]> (its_of s)) as I1 by (by rewrite its_put, E1).
  destruct (N.eqb_spec (rweight r') 0) as [Hz|Hz].
  - apply cw_bind_lift. intros [es h] Eu. apply its_unlink in Eu. apply cw_ok. cbn [fst snd].
    assert (epay (Resident r') = 0%N) as Hz'. { simpl. unfold pay. by rewrite Hz. }
    match goal with |- (Φ ?x ≤ _)%N => assert (its_of x = <[t := Some (Resident r')]> (its_of s)) as I2 end.
    { rewrite its_head. transitivity (items es); [done|]. by rewrite Eu. }
    pose proof (Φ_swap _ _ _ _ _ Ht I2). cbn [oget] in *. lia.
  - apply cw_bind_pt; [lia|]. apply cw_bind_lift. intros [es h] Eu. apply its_unlink in Eu.
    apply cw_bind_lift. intros [es2 h2] El. apply its_link in El.
    apply cw_bind_lift. intros s2 E2. apply its_dec in E2. apply cw_bind_lift. intros s3 E3.
    assert (its_of s2 = <[t := Some (Ghost (hash P (r_key r')))]> (its_of s)) as I2.
    { rewrite E2. transitivity (items es2); [done|]. rewrite El. transitivity (items es); [done|]. rewrite Eu.
      etrans; [apply its_put|]. rewrite I1. apply list_insert_insert. }
    pose proof (Φ_swap _ _ _ _ _ Ht I2) as HΦ. cbn [oget epay] in *.
    assert (Φ s3 ≤ Φ s2)%N as H3.
    { destruct (_ <? _)%N in E3.
      - apply its_advance_ghost in E3 as (g & hg & _ & I3). change (its_of (set_nnr s2 (sh_nnr s2 + 1))) with (its_of s2) in *. by apply (Φ_none _ _ g).
      - injection E3 as <-. done. }
    apply cw_bind_pt; [lia|]. apply cw_ok. simpl. lia.
Qed.
Lemma w_cold s l : Inv s → cw (Φ s) (c_advance_cold s l) (λ a, Φ a.1.1).
Proof.
  intros HI0. pose proof HI0 as (rs & fl & HI). unfold c_advance_cold.
  pose proof (i_heads _ _ _ HI RCold) as Hh. simpl in Hh. rewrite Hh.
  destruct (rs RCold) as [|idx C] eqn:HAC; simpl; [by apply w_hot|].
  rewrite Nat.add_1_r. simpl.
  assert (idx ∈ rs RCold) as Hin by (rewrite HAC; by left).
  destruct (inv_ring_cold _ _ _ _ HI Hin) as (r & Ht & Hst & Hw).
  destruct (RI_get _ _ _ _ [] _ _ (i_ri _ _ _ HI) HAC) as (e & nx & Hg & He & Hnx).
  assert (e = Resident r) as -> by (unfold its_of in Ht; congruence). clear He.
  apply cw_bind_lift. intros [e nx']. rewrite Hg. simpl. intros [= <- <-].
  apply cw_bind_lift. intros _ _. destruct (N.eqb_spec (r_ref r) 0) as [Hr|Hr]; simpl; [|by apply (w_promote s l rs fl idx r [] C)].
  pose proof (Φ_ge _ _ _ Ht) as Hge. kk.
  assert (c ≤ epay (Resident r))%N as Hc. { simpl. unfold pay. destruct (N.eqb_spec (rweight r) 0); [done|]. lia. }
  apply cw_bind_pt; [lia|]. rewrite unpinned_no. apply w_cold_evict; [done|done|]. lia.
Qed.
Lemma w_evict_loop n : ∀ s l x, Inv s → cw (Φ s) (c_evict_loop n s l x) (λ a, Φ a.1).
Proof.
  induction n as [|n IH]; intros s l x HI; simpl; [apply cw_fail|]. apply cw_bind_lift. intros a Ha.
  apply cw_bind_lift. intros a' _. destruct (_ <? _)%N; [|apply cw_ok; simpl; lia].
  eapply cw_bind; [by apply w_cold|]. intros [[s1 l1] b]. rewrite er_advance_cold. intros E.
  destruct (advance_cold_spec LW s l HI) as (s' & l' & b' & E' & H).
  { rewrite (wsum_total s HI). unfold wadd in Ha. destruct (N.ltb_spec (a_weight (sh_hot s) + a_weight (sh_cold s)) two64); [done|discriminate]. }
  rewrite E in E'. injection E' as <- <- <-. destruct b; [|apply cw_ok; simpl; lia]. destruct H as (HI1 & _). by apply IH.
Qed.
Lemma w_evict s l x : Inv s → cw (Φ s) (c_evict_until s l x) (λ a, Φ a.1).
Proof. apply w_evict_loop. Qed.

(* ---- calls that do not evict ---- *)
Definition noc {A} (m : M A) : Prop := cost m.1 = 0%N.
Lemma noc_lift {A} (r : res A) : noc (lift r).
Proof. done. Qed.
Lemma noc_bind {A C} (m : M A) (g : A → M C) : noc m → (∀ a, m.2 = Ok a → noc (g a)) → noc (Crash.mbind m g).
Proof.
  unfold noc, Crash.mbind. destruct m as [t [a|e]]; simpl; [|done]. intros H1 H2. specialize (H2 a eq_refl). rewrite cost_app. lia.
Qed.
Lemma noc_pt {A} p s (g : () → M A) : handles p = false → noc (g ()) → noc (Crash.mbind (pt p s) g).
Proof.
  intros Hp H. unfold noc, Crash.mbind, pt in *. cbn [fst snd]. rewrite cost_app, cost_cons, (κ0 _ Hp). change (cost []) with 0%N. lia.
Qed.
Lemma noc_bind_lift {A C} (r : res A) (g : A → M C) : (∀ a, r = Ok a → noc (g a)) → noc (Crash.mbind (lift r) g).
Proof. intros H. apply noc_bind; [done|exact H]. Qed.
Lemma noc_end {A} s wl (a : A) : noc (end_request s wl a).
Proof. destruct wl; simpl; [done|]. by apply noc_pt. Qed.
Lemma cw_noc {A} n (m : M A) q : noc m → (∀ a, m.2 = Ok a → (q a ≤ n)%N) → cw n m q.
Proof. unfold noc, cw. intros -> H. destruct m as [t [a|e]]; simpl in *; [|lia]. specialize (H a eq_refl). lia. Qed.
Ltac ns := repeat first
  [ apply noc_lift
  | apply noc_end
  | apply noc_pt; [reflexivity|]
  | apply noc_bind_lift; intros
  | match goal with |- noc (match ?x with _ => _ end) => destruct x end
  | match goal with |- noc (let '(_, _) := ?x in _) => destruct x end ].
Lemma noc_search s h k : noc (c_search s h k).
Proof. unfold c_search. ns. Qed.
Lemma noc_search_resident s h k : noc (c_search_resident s h k).
Proof. unfold c_search_resident. ns. Qed.
Lemma noc_get_mut s h k : noc (c_get_mut s h k).
Proof. unfold c_get_mut. apply noc_bind; [apply noc_search_resident|]. intros o _. ns. Qed.
Lemma noc_peek_token s t : noc (c_peek_token_mut s t).
Proof. unfold c_peek_token_mut. ns. Qed.
Lemma noc_peek_mut s h k : noc (c_peek_mut s h k).
Proof. unfold c_peek_mut. apply noc_bind; [apply noc_search_resident|]. intros [[t r]|] _; [apply noc_peek_token|ns]. Qed.
Lemma noc_use_refmut s o g : noc (c_use_refmut s o g).
Proof. unfold c_use_refmut. destruct o as [[t w]|]; [|ns]. ns. apply noc_bind; [|intros; ns]. unfold c_refmut_drop. ns. Qed.
Lemma noc_remove_internal s h i : noc (c_remove_internal s h i).
Proof. unfold c_remove_internal. ns. Qed.
Lemma noc_remove s h k : noc (c_remove s h k).
Proof. unfold c_remove. apply noc_bind; [apply noc_search|]. intros [t|] _; [apply noc_remove_internal|ns]. Qed.
Lemma noc_retain_remove q : ∀ s, noc (c_retain_remove s q).
Proof. induction q as [|[i h] q IH]; intros s; simpl; [ns|]. apply noc_bind; [apply noc_remove_internal|]. intros [s' o] _. apply IH. Qed.
Lemma noc_grow gr ip s : handles gr = false → handles ip = false → noc (c_grow gr ip s).
Proof.
  intros Hg Hi. unfold c_grow. destruct (grows _ _); [|ns]. generalize (@nil (N * nat)).
  induction (tpairs (sh_map s)) as [|[h t] ps IH]; intros d; simpl; [ns|].
  apply noc_pt; [done|]. apply noc_pt; [done|]. apply noc_bind_lift. intros h' _. apply IH.
Qed.
Lemma noc_map_insert gr ip s h t : handles gr = false → handles ip = false → noc (c_map_insert gr ip s h t).
Proof. intros. unfold c_map_insert. apply noc_bind; [by apply noc_grow|]. intros. ns. Qed.
Lemma noc_upsert s h k : noc (c_upsert_placeholder s h k).
Proof.
  unfold c_upsert_placeholder. apply noc_bind; [apply noc_search|]. intros [t|] _; [ns|]. ns.
  apply noc_bind; [by apply noc_map_insert|]. intros. ns.
Qed.

(* what they do to the items *)
Lemma its_hit s : its_of (record_hit s) = its_of s. Proof. done. Qed.
Lemma its_miss s : its_of (record_miss s) = its_of s. Proof. done. Qed.
Lemma its_use_refmut s o g s' seen : use_refmut s o g = Ok (s', seen) →
  match o with None => s' = s | Some (t, _) => ∃ e, its_of s' = <[t := Some e]> (its_of s) end.
Proof.
  unfold use_refmut. destruct o as [[t w]|]; [|by intros [= <- _]]. unfold refmut_write.
  destruct (slab_get (sh_ents s) t) as [[[r| |] n]|]; try done. cbn [rbind]. unfold refmut_drop.
  destruct (slab_get _ t) as [[[r'| |] n']|]; try done. cbv zeta.
  destruct (negb _); [|cbn [rbind]; intros [= <- _]; eexists; apply its_put].
  destruct (cold_change_weight _ _ _ _) as [s2|] eqn:E; cbn [rbind]; [|done]. intros [= <- _]. apply its_change in E. rewrite E.
  eexists. apply its_put.
Qed.
Lemma its_get_mut s h k s' o : sh_get_mut s h k = Ok (s', o) →
  match o with None => its_of s' = its_of s | Some (t, _) => ∃ e, its_of s' = <[t := Some e]> (its_of s) end.
Proof.
  unfold sh_get_mut. destruct (search_resident s h k) as [[[t r]|]|]; cbn [rbind]; [|by intros [= <- <-]|done].
  destruct (entry_at s t) as [[r'| |]|]; try done. cbn [rbind]. intros [= <- <-]. eexists. rewrite its_hit. apply its_put.
Qed.
Lemma its_remove_internal s h i s' o : remove_internal s h i = Ok (s', o) → its_of s' = <[i := None]> (its_of s).
Proof.
  unfold remove_internal. destruct (map_remove s h i) as [s1|] eqn:E1; cbn [rbind]; [|done]. apply its_map_remove in E1. rewrite <-E1.
  destruct (slab_remove _ i) as [[es [[e n]|]]|] eqn:E2; cbn [rbind unwrap]; try done. apply its_remove in E2.
  destruct e as [r|p|g].
  - cbv zeta. destruct (dec_num _ _) as [s2|] eqn:E3; cbn [rbind]; [|done]. apply its_dec in E3.
    destruct (sub_weight _ _ _) as [s3|] eqn:E4; cbn [rbind]; [|done]. apply its_sub in E4. intros [= <- _].
    transitivity (its_of s3); [by case_bool_decide; rewrite ?its_head|]. rewrite E4, E3. exact E2.
  - intros [= <- _]. exact E2.
  - destruct (dec_nnr _) as [s2|] eqn:E3; cbn [rbind]; [|done]. apply its_nnr in E3. intros [= <- _].
    transitivity (its_of s2); [by case_bool_decide|]. rewrite E3. exact E2.
Qed.
Lemma Φ_retain q : ∀ s s', retain_remove s q = Ok s' → (Φ s' ≤ Φ s)%N.
Proof.
  induction q as [|[i h] q IH]; intros s s'; simpl; [intros [= <-]; lia|].
  destruct (remove_internal s h i) as [[s1 o]|] eqn:E; cbn [rbind]; [|done]. intros H. apply IH in H.
  apply its_remove_internal, Φ_none in E. lia.
Qed.
Lemma Φ_upsert s h k s' (r : (nat * V) + (plh * bool)) : upsert_placeholder s h k = Ok (s', r) →
  match r with inl (t, _) => ∃ e, its_of s' = <[t := Some e]> (its_of s) | inr _ => (Φ s' ≤ Φ s)%N end.
Proof.
  unfold upsert_placeholder. destruct (search s h k) as [[t|]|]; cbn [rbind]; [| |done].
  - destruct (entry_at s t) as [[r'|p|g]|]; cbn [rbind]; [| | |done].
    + intros [= <- <-]. eexists. rewrite its_hit. apply its_put.
    + intros [= <- <-]. change (Φ (record_hit s)) with (Φ s); lia.
    + cbv zeta. destruct (dec_nnr _) as [s1|] eqn:E1; cbn [rbind]; [|done]. apply its_nnr in E1.
      destruct (slab_unlink _ t) as [[es n]|] eqn:E2; cbn [rbind]; [|done]. apply its_unlink in E2. intros [= <- <-].
      match goal with |- (Φ ?x ≤ _)%N => assert (its_of x = <[t := Some (Placeholder (Pla k Hot (Plh h t (sh_nph s))))]> (its_of s)) as H end.
      { rewrite its_miss. transitivity (items es); [by case_bool_decide|]. rewrite E2. transitivity (its_of s1); [done|]. rewrite E1. exact (its_put (set_nph s (sh_nph s + 1)) t _). }
      apply Φ_put in H. simpl in H. lia.
  - cbv zeta. destruct (slab_insert _ _) as [[es i]|] eqn:E1; cbn [rbind]; [|done].
    apply (its_new (set_nph s (sh_nph s + 1))) in E1. change (Φ (set_nph s (sh_nph s + 1))) with (Φ s) in E1. simpl in E1.
    destruct (assert _); cbn [rbind]; [|done]. destruct (map_insert _ _ _) as [s2|] eqn:E2; cbn [rbind]; [|done].
    apply its_map_insert in E2. intros [= <- <-].
    assert (Φ (record_miss s2) = esum epay (items es)) as ->; [|lia].
    unfold Φ. rewrite its_miss, E2. done.
Qed.

(* ---- insertions ---- *)
Lemma w_finish s s1 l1 t e : Inv s1 → its_of s1 = <[t := Some e]> (its_of s) →
  cw (Φ s + top) (let* (s', l') := c_evict_until s1 l1 0 in lift (Ok (s', l', @None (K * V)))) (λ a, Φ a.1.1).
Proof.
  intros HI E. apply Φ_put in E. pose proof (epay_top e).
  eapply cw_bind; [eapply cw_mono; [by apply w_evict| |intros; reflexivity]; lia|]. intros [? ?] _. apply cw_ok. simpl. lia.
Qed.
Lemma w_over s l k v strat n : Inv s → (Φ s ≤ n)%N → cw n (c_handle_insert_overweight s l (hash P k) k v strat) (λ a, Φ a.1.1).
Proof.
  intros HI Hn. apply cw_noc.
  - unfold c_handle_insert_overweight. apply noc_bind; [apply noc_search_resident|]. intros o _. apply noc_bind; [|intros [? ?] _; ns].
    destruct o as [[t r]|]; [|ns]. apply noc_bind; [apply noc_remove_internal|]. intros [? [[? ?]|]] _; ns.
  - intros [[s' l'] o]. rewrite er_over. unfold handle_insert_overweight.
    destruct (search_resident s (hash P k) k) as [[[t r]|]|]; cbn [rbind]; [| |done].
    + destruct (remove_internal _ _ _) as [[s1 o1]|] eqn:E; cbn [rbind]; [|done]. apply its_remove_internal, Φ_none in E.
      destruct o1 as [[? ?]|]; cbn [rbind]; destruct (is_replace strat); intros [= <- <- <-]; simpl; lia.
    + destruct (is_replace strat); intros [= <- <- <-]; simpl; lia.
Qed.
Lemma w_insert s l k v strat : Inv s → cw (Φ s + top) (c_insert s l (hash P k) k v strat) (λ a, Φ a.1.1).
Proof.
  intros HI. unfold c_insert. apply cw_bind_free; [done|].
  pose proof (admission_eq (sh_target_hot s) l k v) as Had. unfold admission_l in Had.
  destruct (admission (sh_target_hot s) (lrs l) k v) as [[[rs1 es0] v1] over] eqn:Hadm. cbv zeta. rewrite Had. clear Had.
  set (l1 := Lcs rs1 (llog l ++ es0)). destruct over; [apply w_over; [done|lia]|].
  eapply (cw_bind _ _ _ (λ _, (Φ s + top)%N)); [apply cw_noc; [apply noc_search|intros; lia]|]. intros o. rewrite er_search.
  destruct (search_spec LW s k HI) as (o' & -> & Ho). intros [= <-].
  destruct Ho as [t e k' Hm Ht He Hk|t Hm Ht Ha|Ha Hg].
  - unfold c_insert_existing. apply cw_bind_lift. intros e'. rewrite (entry_at_ok _ _ _ Ht). intros [= <-].
    destruct e as [r|q|h]; simpl in He; [injection He as <-|injection He as <-|done]; cbn beta iota zeta.
    + apply cw_assoc, cw_bind_lift. intros _ _.
      set (r' := Res k v1 (r_state r) (N.min (r_ref r + (if is_soft strat then 0 else 1)) MAX_F)).
      pose proof (reweigh_spec LW s t r r' HI Ht eq_refl (keqb_sym _ LW _ _ Hk)) as Hrw. simpl in Hrw.
      change (rweight r') with (weight P k v1) in Hrw.
      apply cw_assoc, cw_bind_free; [done|]. apply cw_assoc, cw_bind_lift. intros s1 E1. apply cw_assoc, cw_bind_lift. intros s2 E2.
      apply cw_assoc, cw_bind_lift. intros s3 E3.
      assert (reweigh (set_entry s t (Resident r')) (r_state r) t (rweight r) (weight P k v1) = Ok s3) as Er.
      { unfold reweigh. rewrite E1. simpl. rewrite E2. simpl. exact E3. }
      rewrite Er in Hrw. destruct (_ <? two64)%N; [|done]. destruct Hrw as (s3' & [= <-] & HI3 & Hit3 & _).
      apply cw_assoc, cw_bind_free; [done|]. apply cw_bind_lift. intros [s4 l4] [= <- <-].
      by eapply w_finish.
    + destruct (is_replace strat) eqn:Hrep; [apply cw_ok; simpl; lia|]. cbn beta iota zeta.
      apply cw_assoc, cw_bind_lift. intros s1 E1. apply cw_assoc, cw_bind_lift. intros s2 E2.
      apply cw_bind_lift. intros [s4 l4] [= <- <-].
      set (r' := Res k v1 (p_hot q) 1).
      assert (enter (set_entry s t (Resident r')) (p_hot q) t (weight P k v1) = Ok s2) as Er.
      { unfold enter, r'. rewrite E1. simpl. exact E2. }
      destruct (N.ltb_spec (a_weight (sh_acct s (p_hot q)) + weight P k v1) two64) as [HW|HW].
      2:{ rewrite enter_ovf in Er; [done|]. by destruct (p_hot q). }
      destruct (enter_ph_spec LW s t q r' HI Ht Hm (keqb_sym _ LW _ _ Hk) HW) as (s3 & Hen & HI3 & Hit3 & _).
      simpl in Hen. change (rweight r') with (weight P k v1) in Hen. rewrite Er in Hen. injection Hen as <-.
      by eapply w_finish.
  - unfold c_insert_existing. apply cw_bind_lift. intros e'. rewrite (entry_at_ok _ _ _ Ht). intros [= <-].
    cbn beta iota zeta. destruct (is_replace strat) eqn:Hrep; [apply cw_ok; simpl; lia|]. cbn beta iota zeta.
    apply cw_assoc, cw_bind_lift. intros s1 E1. apply cw_assoc, cw_bind_lift. intros s2 E2.
    apply cw_assoc, cw_bind_lift. intros [es ng] E3. apply cw_assoc, cw_bind_lift. intros s4 E4.
    apply cw_bind_lift. intros [s5 l5] [= <- <-].
    set (r' := Res k v1 Hot 0).
    assert (enter_ghost (set_entry s t (Resident r')) t (weight P k v1) = Ok s4) as Er.
    { unfold enter_ghost, r'. rewrite E1. cbn [rbind]. rewrite E2. cbn [rbind]. rewrite E3. exact E4. }
    destruct (N.ltb_spec (a_weight (sh_hot s) + weight P k v1) two64) as [HW|HW].
    2:{ by rewrite enter_ghost_ovf in Er. }
    destruct (enter_ghost_spec LW s t r' HI Ht Ha eq_refl HW) as (s3 & Hen & HI3 & Hit3 & _).
    change (rweight r') with (weight P k v1) in Hen. rewrite Er in Hen. injection Hen as <-.
    by eapply w_finish.
  - destruct (is_replace strat); [apply cw_ok; simpl; lia|]. apply cw_bind_lift. intros hw _. cbv zeta.
    eapply (cw_bind _ _ _ (λ a, (Φ a.1 + top)%N)).
    { pose proof (w_evict s l1 (weight P k v1) HI) as H. unfold cw in *. destruct (c_evict_until s l1 (weight P k v1)).2; simpl in *; lia. }
    intros [s1 l2] _. cbn [fst snd].
    apply cw_bind_lift. intros s2 E2. apply its_add in E2. rewrite its_inc in E2. apply cw_bind_lift. intros [es idx] E3.
    apply its_new in E3. rewrite (Φ_its _ _ E2) in E3.
    match type of E3 with (_ ≤ _ + epay ?e)%N => pose proof (epay_top e) end.
    apply cw_bind_lift. intros s4 E4.
    assert (Φ s4 = esum epay (items es)) as H4.
    { destruct (negb _) in E4; [apply its_back in E4|injection E4 as <-]; unfold Φ; [by rewrite E4|done]. }
    apply cw_noc; [apply noc_bind; [by apply noc_map_insert|intros; ns]|].
    intros a. unfold Crash.mbind. rewrite er_map_insert. destruct (map_insert _ _ _) as [s5|] eqn:E5; simpl; [|done].
    intros [= <-]. simpl. apply its_map_insert in E5. rewrite (Φ_its _ _ E5). lia.
Qed.
Lemma w_fill s k s1 p rs v n : Inv s → handle s k s1 p → (Φ s1 + c ≤ n)%N → cw n (c_fill s1 rs p v) (λ a, Φ a.1).
Proof.
  intros HI [HI1 Hcfg Hit Hg (kp & Ho & Hkp) _ _ _ _] Hn. unfold c_fill. apply cw_bind_free; [done|].
  eapply (cw_bind _ _ _ (λ a, Φ a.1.1)); [|intros [[s2 l2] o2] _; apply cw_bind_lift; intros; apply cw_ok; simpl; lia].
  unfold owned in Ho. destruct (ph_at s1 (ph_idx p)) as [[q b]|] eqn:Hph; [|done].
  destruct (same_as (p_shared q) p) eqn:Hsa; [|done]. injection Ho as <-.
  destruct (Hg _ _ Hph Hsa) as [-> Hpq]. apply ph_at_Some in Hph as [Ht Hb].
  symmetry in Hb. apply bool_decide_eq_true in Hb as Hm.
  unfold c_replace_placeholder. destruct (get_live _ _ _ Ht) as (nx & -> & _). rewrite Hsa. cbv zeta.
  apply cw_bind_free; [done|].
  change (sh_target_hot (set_entry s1 (ph_idx p) (Ghost 0))) with (sh_target_hot s1).
  pose proof (admission_eq (sh_target_hot s1) (Lcs rs []) (p_key q) v) as Had. unfold admission_l in Had.
  destruct (admission (sh_target_hot s1) (lrs (Lcs rs [])) (p_key q) v) as [[[rs1 es0] v1] over] eqn:Hadm. rewrite Had. clear Had.
  set (l1 := Lcs rs1 _). destruct over.
  - destruct (over_ph_spec LW s1 l1 p q v1 (Ghost 0) HI1 Ht Hm Hpq) as (s' & E & HI' & Hi' & _).
    rewrite <-er_over2 in E. apply cw_noc.
    + apply noc_bind; [unfold c_handle_overweight_replace_placeholder; ns|intros [? ?] _; ns].
    + intros a. unfold Crash.mbind. rewrite E. simpl. intros [= <-]. simpl. apply Φ_none in Hi'. lia.
  - apply cw_bind_lift. intros a E0. apply cw_bind_lift. intros a' E0'. apply cw_bind_lift. intros s2 E1.
    rewrite set_entry_twice in E1.
    change (sh_capacity (set_entry s1 (ph_idx p) (Ghost 0))) with (sh_capacity s1) in *.
    set (st := if (_ <=? sh_capacity s1)%N then Hot else p_hot q) in *.
    set (r' := Res (p_key q) v1 st 0).
    assert (epay (Resident r') ≤ c)%N as Hpay.
    { simpl. unfold pay. destruct (_ =? _)%N; [lia|]. simpl. destruct st; simpl; lia. }
    destruct (negb _) eqn:Hz.
    + apply cw_bind_lift. intros s3 E2.
      assert (enter (set_entry s1 (ph_idx p) (Resident r')) st (ph_idx p) (weight P (p_key q) v1) = Ok s3) as Er.
      { unfold enter, r'. rewrite E1. cbn [rbind]. rewrite Hz. exact E2. }
      destruct (N.ltb_spec (a_weight (sh_acct s1 st) + weight P (p_key q) v1) two64) as [HW|HW].
      2:{ rewrite enter_ovf in Er; [done|]. by destruct st. }
      destruct (enter_ph_spec LW s1 (ph_idx p) q r' HI1 Ht Hm (keqb_refl _ LW _) HW) as (s4 & Hen & HI4 & Hit4 & _).
      change (r_state r') with st in Hen. change (rweight r') with (weight P (p_key q) v1) in Hen. rewrite Er in Hen. injection Hen as <-.
      apply Φ_put in Hit4. eapply cw_bind; [eapply cw_mono; [by apply w_evict| |intros; reflexivity]; lia|].
      intros [? ?] _. apply cw_ok. simpl. lia.
    + apply cw_ok. simpl. apply its_add in E1. rewrite its_inc, its_put in E1. apply Φ_put in E1. change (epay (Resident (Res (p_key q) v1 st 0))) with (epay (Resident r')) in E1. lia.
Qed.

(* ---- every call ---- *)
Definition most : N := (2 * c + 3)%N.
Lemma er_w_exec s m : (w_exec s m).2 = exec s m.
Proof.
  destruct m; try apply er_exec.
  - etrans; [|exact (er_exec s (CRefOrGuard rs k g))]. cbn [w_exec c_exec]. unfold w_u_ref_or_guard, c_u_ref_or_guard, Crash.mbind. simpl.
    destruct (c_upsert_placeholder s (hash P k) k).2 as [[s1 [[t v]|[p b]]]|]; simpl; try done. destruct g; try done.
    cbn [w_use_guard c_use_guard]. unfold Crash.mbind, unwinding. cbn [fst snd]. by destruct (c_fill (P:=P) s1 rs p v).2 as [[? ?]|].
  - etrans; [|exact (er_exec s (CMutOrGuard rs k f0 g))]. cbn [w_exec c_exec]. unfold w_u_mut_or_guard, c_u_mut_or_guard, Crash.mbind. simpl.
    destruct (c_upsert_placeholder s (hash P k) k).2 as [[s1 [[t v]|[p b]]]|]; simpl; try done. destruct g; try done.
    cbn [w_use_guard c_use_guard]. unfold Crash.mbind, unwinding. cbn [fst snd]. by destruct (c_fill (P:=P) s1 rs p v).2 as [[? ?]|].
Qed.
Lemma cw_end {A} n s wl (a : A) q : (q a ≤ n)%N → cw n (end_request s wl a) q.
Proof. intros H. apply cw_noc; [apply noc_end|]. intros a'. by destruct wl; intros [= <-]. Qed.
Lemma w_upsert_mut s k s1 t v0 g : upsert_placeholder s (hash P k) k = Ok (s1, inl (t, v0)) →
  cw (Φ s + most) (let* o := c_peek_token_mut s1 t in let* (s, seen) := c_use_refmut s1 o g in lift (Ok (s, plain (RVal seen)))) (λ a, Φ a.1).
Proof.
  intros E. apply Φ_upsert in E as (e & E). apply cw_noc.
  - apply noc_bind; [apply noc_peek_token|]. intros o _. apply noc_bind; [apply noc_use_refmut|]. intros [? ?] _. ns.
  - intros a. unfold Crash.mbind. rewrite er_peek_token_mut. simpl. rewrite er_use_refmut.
    destruct (use_refmut s1 _ g) as [[s2 seen]|] eqn:E2; simpl; [|done]. intros [= <-]. simpl. apply its_use_refmut in E2. unfold most.
    unfold peek_token_mut in E2. destruct (slab_get (sh_ents s1) t) as [[[r| |] n]|].
    + destruct E2 as [e2 E2]. rewrite E, list_insert_insert in E2. apply Φ_put in E2. pose proof (epay_top e2). unfold top in *. lia.
    + subst s2. apply Φ_put in E. pose proof (epay_top e). unfold top in *. lia.
    + subst s2. apply Φ_put in E. pose proof (epay_top e). unfold top in *. lia.
    + subst s2. apply Φ_put in E. pose proof (epay_top e). unfold top in *. lia.
Qed.
Lemma w_guard s k s1 p rs g : Inv s → handle s k s1 p → (Φ s1 ≤ Φ s)%N → cw (Φ s + most) (w_use_guard s1 rs p g) (λ a, Φ a.1).
Proof.
  intros HI Hh Hle. destruct g as [v wl| |]; simpl.
  - eapply (cw_bind _ _ _ (λ a, Φ a.1)); [apply (w_fill s k s1 p rs v _ HI Hh); unfold most; lia|].
    intros [s2 l2] _. apply cw_end. simpl. lia.
  - apply cw_bind_lift. intros s2 E. apply cw_ok. simpl.
    assert (its_of s2 = its_of s1) as E2.
    { unfold remove_placeholder in E. destruct (tfind _ _ _ _) as [[i|]|]; cbn [rbind] in E; try done; by injection E as <-. }
    rewrite (Φ_its _ _ E2). unfold most. lia.
  - apply cw_ok. simpl. unfold most. lia.
Qed.
Lemma w_call s m : Inv s → cw (Φ s + most) (w_exec s m) (λ a, Φ a.1).
Proof.
  intros HI. assert (Φ s + top ≤ Φ s + most)%N as Hmost by (unfold top, most; lia).
  destruct m as [k|k|k|k g|k g|k|rs k v soft wl|rs k v wl|g| | | |rs k w|rs k w g|rs k g|rs k h g]; cbn [w_exec c_exec].
  - apply cw_bind_free; [done|]. apply cw_noc; [apply noc_bind; [unfold c_contains; ns|intros; ns]|]. intros a. unfold Crash.mbind. rewrite er_contains.
    destruct (sh_contains _ _ _); simpl; [|done]. intros [= <-]. simpl. lia.
  - apply cw_bind_free; [done|]. apply cw_noc; [apply noc_bind; [unfold c_get; ns|intros; ns]|]. intros a. unfold Crash.mbind. rewrite er_get. unfold sh_get.
    destruct (search_resident _ _ _) as [[[t r]|]|]; cbn [rbind]; [| |done]; intros [= <-]; simpl.
    + match goal with |- (Φ ?x ≤ _)%N => assert (∃ e, its_of x = <[t := Some e]> (its_of s)) as [e E] end.
      { eexists. rewrite its_hit. apply its_put. }
      apply Φ_put in E. pose proof (epay_top e). lia.
    + change (Φ (record_miss s)) with (Φ s); lia.
  - apply cw_bind_free; [done|]. apply cw_noc; [apply noc_bind; [unfold c_peek; ns|intros; ns]|]. intros a. unfold Crash.mbind. rewrite er_peek.
    destruct (sh_peek _ _ _); simpl; [|done]. intros [= <-]. simpl. lia.
  - apply cw_bind_free; [done|]. apply cw_noc.
    { apply noc_bind; [apply noc_get_mut|]. intros [s1 o] _. apply noc_bind; [apply noc_use_refmut|]. intros [? ?] _. ns. }
    intros a. unfold Crash.mbind. rewrite er_get_mut. destruct (sh_get_mut _ _ _) as [[s1 o]|] eqn:E1; simpl; [|done].
    rewrite er_use_refmut. destruct (use_refmut s1 o g) as [[s2 seen]|] eqn:E2; simpl; [|done]. intros [= <-]. simpl.
    apply its_get_mut in E1. apply its_use_refmut in E2. destruct o as [[t w]|].
    + destruct E1 as [e1 E1], E2 as [e2 E2]. rewrite E1, list_insert_insert in E2. apply Φ_put in E2. pose proof (epay_top e2). lia.
    + subst s2. rewrite (Φ_its _ _ E1). lia.
  - apply cw_bind_free; [done|]. apply cw_noc.
    { apply noc_bind; [apply noc_peek_mut|]. intros o _. apply noc_bind; [apply noc_use_refmut|]. intros [? ?] _. ns. }
    intros a. unfold Crash.mbind. rewrite er_peek_mut. destruct (sh_peek_mut _ _ _) as [o|] eqn:E1; simpl; [|done].
    rewrite er_use_refmut. destruct (use_refmut s o g) as [[s2 seen]|] eqn:E2; simpl; [|done]. intros [= <-]. simpl.
    apply its_use_refmut in E2. destruct o as [[t w]|].
    + destruct E2 as [e2 E2]. apply Φ_put in E2. pose proof (epay_top e2). lia.
    + subst s2. lia.
  - apply cw_bind_free; [done|]. apply cw_noc.
    { apply noc_bind; [apply noc_remove|]. intros [? ?] _. ns. }
    intros a. unfold Crash.mbind. rewrite er_remove. unfold sh_remove. destruct (search _ _ _) as [[t|]|]; cbn [rbind]; [| |done].
    + destruct (remove_internal _ _ _) as [[s1 o1]|] eqn:E; simpl; [|done]. intros [= <-]. simpl. apply its_remove_internal, Φ_none in E. lia.
    + intros [= <-]. simpl. lia.
  - unfold c_u_replace. apply cw_bind_free; [done|]. apply cw_bind_free; [done|].
    eapply (cw_bind _ _ _ (λ a, Φ a.1.1)); [eapply cw_mono; [by apply w_insert|done|done]|].
    intros [[s1 l1] [kv|]] _; simpl; [apply cw_ok; simpl; lia|]. apply cw_end. simpl. lia.
  - unfold c_u_insert. apply cw_bind_free; [done|]. apply cw_bind_free; [done|].
    eapply (cw_bind _ _ _ (λ a, Φ a.1.1)); [eapply cw_mono; [by apply w_insert|done|done]|].
    intros [[s1 l1] o] _; simpl. apply cw_bind_lift. intros _ _. apply cw_end. simpl. lia.
  - apply cw_noc. { apply noc_bind; [unfold c_retain; apply noc_pt; [done|apply noc_retain_remove]|]. intros. ns. }
    intros a. unfold Crash.mbind. rewrite er_retain. unfold sh_retain. destruct (retain_remove _ _) as [s1|] eqn:E; simpl; [|done].
    intros [= <-]. simpl. apply Φ_retain in E. lia.
  - apply cw_ok. simpl. unfold Φ, its_of, sh_clear. simpl. lia.
  - simpl. apply cw_ok. simpl. unfold Φ, its_of. simpl. lia.
  - apply cw_noc. { apply noc_bind; [unfold c_reserve; apply noc_bind; [by apply noc_grow|intros; ns]|]. intros. ns. }
    intros a. unfold Crash.mbind. rewrite er_reserve. unfold sh_reserve. destruct (treserve _ _ _) as [t|]; simpl; [|done].
    intros [= <-]. simpl. change (Φ (set_map s t)) with (Φ s). lia.
  - unfold c_u_get_or_insert. apply cw_bind_free; [done|].
    eapply (cw_bind _ _ _ (λ _, (Φ s + most)%N)); [apply cw_noc; [apply noc_upsert|intros; lia]|].
    intros [s1 [[t v0]|[p b]]] E1; pose proof (upsert_step LW _ _ _ _ HI E1) as Hup; rewrite er_upsert in E1; apply Φ_upsert in E1.
    + destruct E1 as [e E1]. apply cw_ok. simpl. apply Φ_put in E1. pose proof (epay_top e). lia.
    + apply (upserted_handle LW _ _ _ _ _ HI) in Hup as [_ Hh]. apply cw_bind_free; [done|]. destruct w as [v|]; [|apply cw_ok; simpl; lia].
      eapply (cw_bind _ _ _ (λ a, Φ a.1)); [apply (w_fill s k s1 p rs v _ HI Hh); unfold most; lia|].
      intros [s2 l2] _. apply cw_end. simpl. lia.
  - unfold c_u_get_mut_or_insert. apply cw_bind_free; [done|].
    eapply (cw_bind _ _ _ (λ _, (Φ s + most)%N)); [apply cw_noc; [apply noc_upsert|intros; lia]|].
    intros [s1 [[t v0]|[p b]]] E1; pose proof (upsert_step LW _ _ _ _ HI E1) as Hup; rewrite er_upsert in E1.
    + by apply (w_upsert_mut s k s1 t v0 g).
    + apply Φ_upsert in E1. apply (upserted_handle LW _ _ _ _ _ HI) in Hup as [_ Hh]. apply cw_bind_free; [done|].
      destruct w as [v|]; [|apply cw_ok; simpl; lia].
      eapply (cw_bind _ _ _ (λ a, (Φ a.1 + top)%N)).
      { pose proof (w_fill s k s1 p rs v _ HI Hh ltac:(reflexivity)) as H. unfold cw in H |- *. unfold most, top.
        destruct (c_fill s1 rs p v).2; cbv beta iota in H |- *; lia. }
      intros [s2 l2] _. cbn [fst snd]. apply cw_noc.
      { apply noc_bind; [apply noc_end|]. intros _ _. apply noc_bind; [apply noc_peek_token|]. intros o _.
        apply noc_bind; [apply noc_use_refmut|]. intros [? ?] _. ns. }
      intros a. unfold Crash.mbind. simpl. rewrite er_peek_token_mut. simpl. rewrite er_use_refmut.
      destruct (use_refmut s2 _ g) as [[s3 seen]|] eqn:E2; simpl; [|done]. intros [= <-]. simpl. apply its_use_refmut in E2.
      destruct (peek_token_mut s2 (ph_idx p)) as [[t w]|].
      * destruct E2 as [e2 E2]. apply Φ_put in E2. pose proof (epay_top e2). lia.
      * subst s3. lia.
  - unfold w_u_ref_or_guard. apply cw_bind_free; [done|].
    eapply (cw_bind _ _ _ (λ _, (Φ s + most)%N)); [apply cw_noc; [apply noc_upsert|intros; lia]|].
    intros [s1 [[t v0]|[p b]]] E1; pose proof (upsert_step LW _ _ _ _ HI E1) as Hup; rewrite er_upsert in E1; apply Φ_upsert in E1.
    + destruct E1 as [e E1]. apply cw_ok. simpl. apply Φ_put in E1. pose proof (epay_top e). lia.
    + apply (upserted_handle LW _ _ _ _ _ HI) in Hup as [_ Hh]. by apply (w_guard s k s1 p).
  - unfold w_u_mut_or_guard. apply cw_bind_free; [done|].
    eapply (cw_bind _ _ _ (λ _, (Φ s + most)%N)); [apply cw_noc; [apply noc_upsert|intros; lia]|].
    intros [s1 [[t v0]|[p b]]] E1; pose proof (upsert_step LW _ _ _ _ HI E1) as Hup; rewrite er_upsert in E1.
    + by apply (w_upsert_mut s k s1 t v0 h).
    + apply Φ_upsert in E1. apply (upserted_handle LW _ _ _ _ _ HI) in Hup as [_ Hh]. by apply (w_guard s k s1 p).
Qed.

(* ---- histories ---- *)
Lemma w_history h : ∀ s, Inv s → (effort f s h ≤ Φ s + most * N.of_nat (length h))%N.
Proof.
  induction h as [|m h IH]; intros s HI; simpl; [lia|]. pose proof (w_call s m HI) as H. unfold cw in H. rewrite er_w_exec in H.
  change (cost (w_exec s m).1) with (call_effort f s m) in H. pose proof (exec_spec LW s m HI) as Hx.
  destruct (exec s m) as [[s' o]|]; simpl in *; [|nia]. specialize (IH s' (st_inv _ _ _ _ Hx)). nia.
Qed.
Lemma w_new budget ghosts cap : Φ (sh_new budget ghosts cap) = 0%N.
Proof. done. Qed.
Lemma Φ_len s : Inv s → (Φ s ≤ top * sh_len s)%N.
Proof.
  intros (rs & fl & HI). destruct (i_acc _ _ _ HI) as [_ Hn _]. unfold Φ, sh_len. pose proof (Hn Hot) as H1. pose proof (Hn Cold) as H2. simpl in H1, H2. rewrite H1, H2. clear HI Hn H1 H2.
  induction (its_of s) as [|o its IH]; [unfold esum; cbn [foldr]; lia|]. unfold esum in *. cbn [foldr].
  assert (oget epay o ≤ top * (oget (nof Hot) o + oget (nof Cold) o))%N as H.
  { destruct o as [[r| |]|]; simpl; try lia. pose proof (pay_top r). destruct (r_state r); simpl; lia. }
  revert IH. generalize (foldr (λ o a, oget epay o + a)%N 0%N its), (foldr (λ o a, oget (nof Hot) o + a)%N 0%N its), (foldr (λ o a, oget (nof Cold) o + a)%N 0%N its).
  intros; nia.
Qed.
Lemma w_single s m : Inv s → (call_effort f s m ≤ top * sh_len s + most)%N.
Proof.
  intros HI. pose proof (w_call s m HI) as H. unfold cw in H. change (cost (w_exec s m).1) with (call_effort f s m) in H.
  pose proof (Φ_len s HI). lia.
Qed.
(* ---- one critical section of the sync cache, and the use of an item by get ---- *)
Lemma w_replace s (p : plh) (rs : RS) (ref : bool) v : Inv s → good_handle s p →
  cw (Φ s + most) (c_replace_placeholder s (Lcs rs []) p ref v) (λ w, Φ w.1.1).
Proof.
  intros HI Hg. assert (∃ n, n = (Φ s + most)%N ∧ (Φ s + c + 1 ≤ n)%N) as (n & <- & Hn) by (eexists; split; [done|unfold most; lia]).
  assert (Φ s ≤ n)%N as Hn0 by lia.
  unfold c_replace_placeholder. destruct (slab_get (sh_ents s) (ph_idx p)) as [[e0 nx]|] eqn:Hget; [|by apply cw_ok].
  destruct e0 as [|q|]; [by apply cw_ok| |by apply cw_ok].
  destruct (same_as (p_shared q) p) eqn:Hsa; [|by apply cw_ok].
  assert (its_of s !! ph_idx p = Some (Some (Placeholder q))) as Ht by (by eapply get_its).
  destruct (ph_at s (ph_idx p)) as [[q' b]|] eqn:Hph; [|exfalso; unfold ph_at in Hph; by rewrite Ht in Hph].
  assert (q' = q) as -> by (unfold ph_at in Hph; rewrite Ht in Hph; by injection Hph).
  destruct (Hg _ _ Hph Hsa) as [-> Hpq]. apply ph_at_Some in Hph as [_ Hb].
  symmetry in Hb. apply bool_decide_eq_true in Hb as Hm. cbv zeta.
  apply cw_bind_free; [done|].
  change (sh_target_hot (set_entry s (ph_idx p) (Ghost 0))) with (sh_target_hot s).
  pose proof (admission_eq (sh_target_hot s) (Lcs rs []) (p_key q) v) as Had. unfold admission_l in Had.
  destruct (admission (sh_target_hot s) (lrs (Lcs rs [])) (p_key q) v) as [[[rs1 es0] v1] over] eqn:Hadm. rewrite Had. clear Had.
  set (l1 := Lcs rs1 _). destruct over.
  - destruct (over_ph_spec LW s l1 p q v1 (Ghost 0) HI Ht Hm Hpq) as (s' & E & HI' & Hi' & _).
    rewrite <-er_over2 in E. apply cw_noc.
    + apply noc_bind; [unfold c_handle_overweight_replace_placeholder; ns|intros [? ?] _; ns].
    + intros a. unfold Crash.mbind. rewrite E. simpl. intros [= <-]. simpl. apply Φ_none in Hi'. lia.
  - apply cw_bind_lift. intros a E0. apply cw_bind_lift. intros a' E0'. apply cw_bind_lift. intros s2 E1.
    rewrite set_entry_twice in E1.
    change (sh_capacity (set_entry s (ph_idx p) (Ghost 0))) with (sh_capacity s) in *.
    set (st := if (_ <=? sh_capacity s)%N then Hot else p_hot q) in *.
    set (r' := Res (p_key q) v1 st (if ref then 1 else 0)).
    assert (epay (Resident r') ≤ c + 1)%N as Hpay.
    { simpl. unfold pay. destruct (_ =? _)%N; [lia|]. simpl. destruct st, ref; simpl; lia. }
    destruct (negb _) eqn:Hz.
    + apply cw_bind_lift. intros s3 E2.
      assert (enter (set_entry s (ph_idx p) (Resident r')) st (ph_idx p) (weight P (p_key q) v1) = Ok s3) as Er.
      { unfold enter, r'. rewrite E1. cbn [rbind]. rewrite Hz. exact E2. }
      destruct (N.ltb_spec (a_weight (sh_acct s st) + weight P (p_key q) v1) two64) as [HW|HW].
      2:{ rewrite enter_ovf in Er; [done|]. by destruct st. }
      destruct (enter_ph_spec LW s (ph_idx p) q r' HI Ht Hm (keqb_refl _ LW _) HW) as (s4 & Hen & HI4 & Hit4 & _).
      change (r_state r') with st in Hen. change (rweight r') with (weight P (p_key q) v1) in Hen. rewrite Er in Hen. injection Hen as <-.
      apply Φ_put in Hit4. eapply cw_bind; [eapply cw_mono; [by apply w_evict| |intros; reflexivity]; lia|].
      intros [? ?] _. apply cw_ok. simpl. lia.
    + apply cw_ok. simpl. apply its_add in E1. rewrite its_inc, its_put in E1. apply Φ_put in E1.
      change (epay (Resident (Res (p_key q) v1 st (if ref then 1 else 0)))) with (epay (Resident r')) in E1. lia.
Qed.
Lemma w_inner s m : Inv s → sync_cmd m = true → cw (Φ s + most) (inner s m) (λ w, Φ w.1).
Proof.
  intros HI Hm. assert (top ≤ most)%N as Hmost by (unfold top, most; lia).
  pose proof (w_call s m HI) as Hc. unfold cw in Hc. rewrite er_w_exec in Hc.
  assert (∀ a, (inner s m).2 = Ok a → (Φ a.1 ≤ Φ s + most)%N) as Hres.
  { intros a. rewrite er_inner by done. intros E. rewrite E in Hc. lia. }
  assert (noc (inner s m) → cw (Φ s + most) (inner s m) (λ w, Φ w.1)) as Hnoc by (intros H; by apply cw_noc).
  clear Hc Hres. destruct m; try done; cbn [inner] in *.
  - apply Hnoc, noc_bind; [unfold c_contains; ns|intros ? _; ns].
  - apply Hnoc, noc_bind; [unfold c_get; ns|intros [??] _; ns].
  - apply Hnoc, noc_bind; [unfold c_peek; ns|intros ? _; ns].
  - apply Hnoc, noc_bind; [by apply noc_remove|intros [??] _; ns].
  - eapply (cw_bind _ _ _ (λ w, Φ w.1.1)); [eapply cw_mono; [by apply w_insert|lia|done]|].
    intros [[s1 l1] [kv|]] _; apply cw_ok; simpl; lia.
  - eapply (cw_bind _ _ _ (λ w, Φ w.1.1)); [eapply cw_mono; [by apply w_insert|lia|done]|].
    intros [[s1 l1] o] _. apply cw_bind_lift. intros _ _. apply cw_ok; simpl; lia.
  - apply Hnoc, noc_bind; [unfold c_retain; apply noc_pt; [done|by apply noc_retain_remove]|intros ? _; ns].
  - apply Hnoc. ns.
  - apply Hnoc, noc_bind; [unfold c_reserve; apply noc_bind; [by apply noc_grow|intros ? _; ns]|intros ? _; ns].
Qed.
Lemma w_sect (PI : ptr_ids P = true) s (z : sect P) : Inv s → sync_sect z → (∀ p, handle_of z = Some p → hgood s p) →
  (count f (sect_points s z) + match xexec s z with Ok (s', _) => Φ s' | Fail _ => 0 end ≤ Φ s + most)%N.
Proof.
  intros HI Hz Hh. destruct z as [m|k|rs p ref v wl|p]; cbn [sect_points xexec].
  - pose proof (w_inner s m HI Hz) as H. unfold cw, cost in H. rewrite er_inner in H by done.
    destruct (exec s m) as [[s' o]|]; simpl in *; lia.
  - pose proof (noc_upsert s (hash P k) k) as Hn. unfold noc, cost in Hn. rewrite Hn.
    destruct (upsert_placeholder s (hash P k) k) as [[s1 r1]|] eqn:E; cbn [rbind]; [|lia].
    apply Φ_upsert in E. destruct r1 as [[t v0]|[p b]].
    + destruct E as [e0 E]. apply Φ_put in E. pose proof (epay_top e0). unfold top, most in *. lia.
    + lia.
  - pose proof (w_replace s p rs ref v HI (hgood_good PI _ _ (Hh p eq_refl))) as H. unfold cw, cost in H. rewrite er_replace in H.
    destruct (replace_placeholder s (Lcs rs []) p ref v) as [[[s1 l1] o1]|]; simpl in *; lia.
  - destruct (remove_placeholder s p) as [s1|] eqn:E; simpl; [|lia].
    assert (its_of s1 = its_of s) as E2.
    { unfold remove_placeholder in E. destruct (tfind _ _ _ _) as [[i|]|]; cbn [rbind] in E; try done; by injection E as <-. }
    rewrite (Φ_its _ _ E2). unfold most. lia.
Qed.
Lemma noc_inner_get s k : noc (inner s (CGet k)).
Proof. cbn [inner]. apply noc_bind; [unfold c_get; ns|intros [??] _; ns]. Qed.
Lemma Φ_bump s t r : its_of s !! t = Some (Some (Resident r)) →
  (Φ (set_entry s t (Resident (set_key_ref r ((r_ref r + 1) mod 65536)))) ≤ Φ s + 1)%N.
Proof.
  intros Ht. pose proof (Φ_swap s (set_entry s t (Resident (set_key_ref r ((r_ref r + 1) mod 65536)))) t _ _ Ht (its_put _ _ _)) as H.
  simpl in H. assert (pay (set_key_ref r ((r_ref r + 1) mod 65536)) ≤ pay r + 1)%N as Hp; [|lia].
  clear H. pose proof (N.mod_le (r_ref r + 1) 65536 ltac:(done)) as Hm. unfold pay.
  change (rweight (set_key_ref r ((r_ref r + 1) mod 65536))) with (rweight r). destruct (_ =? _)%N; [lia|].
  change (r_ref (set_key_ref r ((r_ref r + 1) mod 65536))) with ((r_ref r + 1) mod 65536)%N.
  change (r_state (set_key_ref r ((r_ref r + 1) mod 65536))) with (r_state r). revert Hm. generalize ((r_ref r + 1) mod 65536)%N as n. intros n Hm.
  destruct (r_state r); [lia|]. destruct (N.ltb_spec 2 n), (N.ltb_spec 2 (r_ref r)); lia.
Qed.
End workproofs.
