(* The sync cache used by one thread at a time. *)
From Verif Require Export SyncShard SeqProofs6 OptionsProofs2.
Local Open Scope nat_scope.
Local Arguments xexec : simpl never.

Section syncseq.
Context {P : Params} (LW : Lawful P) (PI : ptr_ids P = true).
Notation K := (K P). Notation V := (V P). Notation RS := (RS P).
Notation shard := (shard P). Notation scache := (scache P). Notation out := (out P).
Implicit Types (s : shard) (c : scache) (k : K) (v : V) (rs : RS) (p : plh) (x : sect P) (r : xret P) (m : scmd P) (o : out).

(* no load is pending *)
Definition idle s : Prop := ∀ t q, ph_at s t ≠ Some (q, true).
Record SI (budget ghosts cap e : N) c : Prop := {
  si_len : length (sc_shards c) = N.to_nat (2 ^ e);
  si_mask : sc_mask c = (2 ^ e - 1)%N;
  si_inv : ∀ j s, sc_shards c !! j = Some s → Inv s ∧ cfg s = (budget, cap, ghosts);
  si_idle : ∀ j s, sc_shards c !! j = Some s → idle s;
}.

Lemma idx_lt b g cap e c k : SI b g cap e c → shard_idx (sc_mask c) k < length (sc_shards c).
Proof. intros [H1 H2 _ _]. rewrite H1, H2. apply shard_idx_lt. Qed.
Lemma shard_for_ok b g cap e c k : SI b g cap e c → shard_for c k = Some (shard_idx (sc_mask c) k).
Proof. intros H. unfold shard_for. by rewrite decide_True by (by eapply idx_lt). Qed.
Lemma idx_keqb mask k k' : keqb P k k' = true → shard_idx mask k = shard_idx mask k'.
Proof. intros H. unfold shard_idx. by rewrite (hash_keqb _ LW _ _ H). Qed.

(* what one call does to a shard it concerns *)
Record sok s m o s' : Prop := {
  sk_inv : Inv s';
  sk_cfg : cfg s' = cfg s;
  sk_does : s_does (sh_capacity s) (sh_target_hot s) (sh_iter s) m o (sh_iter s');
  sk_idle : idle s';
}.
Definition sfails s m (e : fail) : Prop :=
  match e with
  | SlabFull => (two32 ≤ used s + 2)%N
  | WeightOvf => may_overflow (sh_capacity s) (sh_target_hot s) (sh_iter s) (as_cmd m)
  | _ => False
  end.
(* one call on the shard of its key *)
Definition shard_exec s m : res (shard * out) :=
  match m with
  | SKey _ m | SAll m => exec s m
  | SValueOrGuard rs k g =>
      let! (s, r) := xexec s (XCmd (CGet k)) in
      match r with
      | XO (Out (RVal (Some v)) _ _ _) => Ok (s, plain (RVal (Some v)))
      | XO _ =>
        let! (s, r) := xexec s (XJoin k) in
        match r with
        | XHit v => Ok (s, plain (RVal (Some v)))
        | XNew p =>
            match g with
            | SInsert v wl => let! (s, r) := xexec s (XFill rs p false v wl) in match r with XO o => Ok (s, o) | _ => Fail Panic end
            | SDrop => let! (s, _) := xexec s (XDrop p) in Ok (s, plain RGuard)
            end
        | _ => Fail NoFuel
        end
      | _ => Fail Panic
      end
  | SGetOrInsert rs k w =>
      let! (s, r) := xexec s (XCmd (CGet k)) in
      match r with
      | XO (Out (RVal (Some v)) _ _ _) => Ok (s, plain (RVal (Some v)))
      | XO _ =>
        let! (s, r) := xexec s (XJoin k) in
        match r with
        | XHit v => Ok (s, plain (RVal (Some v)))
        | XNew p =>
            match w with
            | Some v => let! (s, r) := xexec s (XFill rs p false v false) in
                match r with XO o => Ok (s, Out (RVal (Some v)) (o_log o) true None) | _ => Fail Panic end
            | None => let! (s, _) := xexec s (XDrop p) in Ok (s, Out RErr [] true None)
            end
        | _ => Fail NoFuel
        end
      | _ => Fail Panic
      end
  end.

Lemma on_shard_eq c j s x : sc_shards c !! j = Some s →
  on_shard c j x = (let! (s, r) := xexec s x in Ok (with_shard c j s, r)).
Proof. intros H. unfold on_shard. by rewrite H. Qed.
Lemma with_shard_lookup c j s : j < length (sc_shards c) → sc_shards (with_shard c j s) !! j = Some s.
Proof. intros. simpl. by rewrite list_lookup_insert. Qed.
Lemma with_shard_twice c j s s' : with_shard (with_shard c j s) j s' = with_shard c j s'.
Proof. unfold with_shard. simpl. by rewrite list_insert_insert. Qed.
Lemma on_key_eq c k j s x : shard_for c k = Some j → sc_shards c !! j = Some s →
  on_key c k x = (let! (s, r) := xexec s x in Ok (with_shard c j s, r)).
Proof. intros H Hs. unfold on_key. rewrite H. simpl. by apply on_shard_eq. Qed.
Lemma shard_for_with c j s k : shard_for (with_shard c j s) k = shard_for c k.
Proof. unfold shard_for, with_shard. simpl. by rewrite insert_length. Qed.

(* a keyed call acts on the shard of its key only *)
Lemma sc_exec_eq c k j s m : s_key m = Some k → shard_for c k = Some j → sc_shards c !! j = Some s →
  sc_exec c m = (let! (s, o) := shard_exec s m in Ok (with_shard c j s, o)).
Proof.
  intros Hk Hj Hs. assert (j < length (sc_shards c)) as Hlt by (by eapply lookup_lt_Some).
  assert (∀ s1 x, on_key (with_shard c j s1) k x = (let! (s, r) := xexec s1 x in Ok (with_shard c j s, r))) as H1.
  { intros s1 x. rewrite (on_key_eq (with_shard c j s1) k j s1); [|by rewrite shard_for_with|by apply with_shard_lookup].
    destruct (xexec s1 x) as [[??]|]; [|done]. simpl. by rewrite with_shard_twice. }
  destruct m as [k' m|m|rs k' g|rs k' w]; simpl in Hk; try done; injection Hk as ->; cbn [sc_exec shard_exec].
  - rewrite (on_key_eq c k j s) by done. unfold xexec. by destruct (exec s m) as [[??]|].
  - unfold s_value_or_guard. rewrite (on_key_eq c k j s) by done.
    destruct (xexec s (XCmd (CGet k))) as [[s1 [[[|b|[v1|]|b|l| |] lg cl st]|v1|p1|p1|v1|]]|]; simpl; try done;
      rewrite H1; destruct (xexec s1 (XJoin k)) as [[s2 [o2|v2|p2|p2|v2|]]|]; simpl; try done; destruct g; simpl; rewrite H1;
      by destruct (xexec s2 _) as [[s3 []]|].
  - unfold s_value_or_guard. rewrite (on_key_eq c k j s) by done.
    destruct (xexec s (XCmd (CGet k))) as [[s1 [[[|b|[v1|]|b|l| |] lg cl st]|v1|p1|p1|v1|]]|]; simpl; try done;
      rewrite H1; destruct (xexec s1 (XJoin k)) as [[s2 [o2|v2|p2|p2|v2|]]|]; simpl; try done; destruct w; simpl; rewrite H1;
      by destruct (xexec s2 _) as [[s3 []]|].
Qed.

Lemma idle_step s x r s' : idle s → xok s x r s' → (∀ p, r ≠ XNew p) → idle s'.
Proof.
  intros Hi Hx Hn t q Hq. destruct (xo_ph _ _ _ _ Hx _ _ _ Hq) as [H|[(H & _)|(p & _ & ? & _)]]; [by eapply Hi|by eapply Hn|done].
Qed.
Lemma idle_pend s id : Inv s → idle s → pend_of s id = None.
Proof. intros HI Hi. apply pend_None; [done|]. intros t q Hq. by destruct (Hi t q). Qed.

Lemma cfg_eq s s' : cfg s' = cfg s → sh_capacity s' = sh_capacity s ∧ sh_target_hot s' = sh_target_hot s.
Proof. unfold cfg. intros [= -> -> _]. done. Qed.

(* the load started by a call *)
Lemma get_sect s k : Inv s → ∃ s', xexec s (XCmd (CGet k)) = Ok (s', XO (plain (RVal (value_of k (sh_iter s))))) ∧ quiet s s'.
Proof.
  intros HI. unfold xexec; cbn [exec]. unfold u_get. destruct (sh_get_spec LW s k HI) as (s' & -> & Hq & _). simpl. eauto.
Qed.
Lemma join_sect s k : Inv s → idle s → value_of k (sh_iter s) = None →
  wp (λ e, e = SlabFull ∧ (two32 ≤ used s + 2)%N) (xexec s (XJoin k)) (λ '(s', r),
    Inv s' ∧ cfg s' = cfg s ∧ sh_iter s' ≡ₚ sh_iter s ∧ ∃ p, r = XNew p ∧ hgood s' p ∧ pend_of s' (ph_id p) = Some k ∧
      (∀ t q, ph_at s' t = Some (q, true) → p_shared q = p)).
Proof.
  intros HI Hi Hv. pose proof (xexec_spec LW PI s (XJoin k) HI I ltac:(done)) as H2.
  destruct (xexec s (XJoin k)) as [[s2 r2]|e]; simpl in H2 |- *; [|by destruct e].
  pose proof (xo_does _ _ _ _ H2) as Hd. destruct r2 as [o2|v2|p2|p2|v2|]; try done; simpl in Hd.
  - by destruct Hd as [? _]; congruence.
  - destruct Hd as (_ & (k' & Hk' & _) & _). by rewrite (idle_pend _ _ HI Hi) in Hk'.
  - destruct Hd as (_ & _ & Hid & Hp & Hpd & _). destruct H2 as [HI2 Hc2 _ He2 _ Hn2 _ _ _ _].
    split_and!; try done. exists p2. destruct (Hn2 p2 eq_refl) as (_ & Hg & _). split_and!; try done.
    + rewrite (Hpd _). unfold pset. by rewrite decide_True.
    + intros t q Hq. destruct (He2 _ _ _ Hq) as [H|[(H & _)|(p & _ & ? & _)]]; [by destruct (Hi t q)|congruence|done].
Qed.
Lemma fill_sect s k rs p v wl : Inv s → hgood s p → pend_of s (ph_id p) = Some k → (∀ t q, ph_at s t = Some (q, true) → p_shared q = p) →
  wp (λ e, e = WeightOvf ∧ in_overflow (sh_target_hot s) (sh_iter s) rs k v)
    (xexec s (XFill rs p false v wl)) (λ '(s', r),
    Inv s' ∧ cfg s' = cfg s ∧ idle s' ∧ ∃ es rs', r = XO (reply rs es rs' wl RGuard false) ∧
      loads (sh_capacity s) (sh_target_hot s) rs (sh_iter s) k v es rs' (sh_iter s')).
Proof.
  intros HI Hg Hp Hall. pose proof (xexec_spec LW PI s (XFill rs p false v wl) HI I) as H2.
  specialize (H2 ltac:(by intros ? [= <-])).
  destruct (xexec s (XFill rs p false v wl)) as [[s2 r2]|e]; simpl in H2 |- *.
  2:{ destruct e; simpl in H2; try done. split; [done|]. destruct H2 as (k' & Hk' & H2). congruence. }
  pose proof (xo_does _ _ _ _ H2) as Hd. destruct r2 as [o2|v2|p2|p2|v2|]; try done; simpl in Hd.
  - destruct Hd as (k' & es & rs' & Hk' & Hl & -> & Hpd & _). rewrite Hp in Hk'. injection Hk' as <-.
    destruct H2 as [HI2 Hc2 _ He2 _ _ _ _ _ _]. split_and!; try done; [|by eauto].
    intros t q Hq. assert (pend_of s2 (ph_id (p_shared q)) = Some (p_key q)) as Hpe by (apply pend_Some; eauto).
    destruct (He2 _ _ _ Hq) as [H|[(H & _)|(p' & H & _)]]; try done.
    rewrite (Hall _ _ H) in Hpe. rewrite (Hpd _) in Hpe. unfold pset in Hpe. by rewrite decide_True in Hpe.
  - destruct Hd as [Hd _]. congruence.
Qed.
Lemma drop_sect s k p : Inv s → hgood s p → pend_of s (ph_id p) = Some k → (∀ t q, ph_at s t = Some (q, true) → p_shared q = p) →
  ∃ s', xexec s (XDrop p) = Ok (s', XGone) ∧ Inv s' ∧ cfg s' = cfg s ∧ idle s' ∧ sh_iter s' ≡ₚ sh_iter s.
Proof.
  intros HI Hg Hp Hall. pose proof (xexec_spec LW PI s (XDrop p) HI I) as H2.
  specialize (H2 ltac:(by intros ? [= <-])).
  destruct (remove_placeholder_spec LW s p HI (hgood_good PI _ _ Hg)) as (s' & Hr & _).
  unfold xexec in *. rewrite Hr in *. simpl in *. exists s'. split; [done|].
  pose proof (xo_does _ _ _ _ H2) as Hd. simpl in Hd. destruct Hd as (Hit & Hpd & _). destruct H2 as [HI2 Hc2 _ He2 _ _ _ _ _ _].
  split_and!; try done.
  intros t q Hq. assert (pend_of s' (ph_id (p_shared q)) = Some (p_key q)) as Hpe by (apply pend_Some; eauto).
  destruct (He2 _ _ _ Hq) as [H|[(H & _)|(p' & _ & ? & _)]]; try done.
  rewrite (Hall _ _ H) in Hpe. rewrite (Hpd _) in Hpe. unfold pset in Hpe. by rewrite decide_True in Hpe.
Qed.

Lemma loads_start cap budget rs (c0 c1 : contents P) k v es rs' (c' : contents P) : c1 ≡ₚ c0 → loads (P:=P) cap budget rs c1 k v es rs' c' → loads cap budget rs c0 k v es rs' c'.
Proof. intros Hp. by apply loads_perm_l. Qed.
Lemma overflow_start budget (c0 c1 : contents P) rs k v : c1 ≡ₚ c0 → in_overflow budget c1 rs k v → in_overflow budget c0 rs k v.
Proof. intros Hp (rs1 & es & v1 & Ha & Hw). exists rs1, es, v1. by rewrite <-Hp. Qed.

Lemma sok_quiet s s1 m o : quiet s s1 → idle s → s_does (sh_capacity s) (sh_target_hot s) (sh_iter s) m o (sh_iter s) → sok s m o s1.
Proof.
  intros Hq Hi Hd. split; [apply Hq|apply Hq| |].
  - by rewrite (q_iter _ _ Hq).
  - intros t q. rewrite (q_ph _ _ Hq). apply Hi.
Qed.
Lemma shard_exec_spec s m : Inv s → idle s → api m →
  wp (sfails s m) (shard_exec s m) (λ '(s', o), sok s m o s').
Proof.
  intros HI Hi Hm.
  assert (∀ m : cmd P, sync_cmd m = true → wp (λ e, xfails s (XCmd m) e) (exec s m) (λ '(s', o), xok s (XCmd m) (XO o) s')) as Hcmd.
  { intros m' Hs. pose proof (xexec_spec LW PI s (XCmd m') HI Hs ltac:(done)) as H. unfold xexec in H. by destruct (exec s m') as [[??]|]. }
  assert (∀ mc, sync_cmd mc = true → (∀ cap budget d o, does cap budget (sh_iter s) mc o d → s_does cap budget (sh_iter s) m o d) →
     as_cmd m = mc → shard_exec s m = exec s mc → wp (sfails s m) (shard_exec s m) (λ '(s', o), sok s m o s')) as Hplain.
  { intros mc Hs Hd Hac ->. specialize (Hcmd mc Hs). destruct (exec s mc) as [[s' o]|e]; simpl in Hcmd |- *.
    2:{ rewrite <-Hac in Hcmd. by destruct e. }
    rename Hcmd into Hx. split; [apply Hx|apply Hx| |by eapply idle_step]. apply Hd. by destruct (xo_does _ _ _ _ Hx) as (_ & ? & _). }
  destruct m as [k m|m|rs k g|rs k w].
  - destruct Hm as [Hs _]. by apply (Hplain m).
  - apply (Hplain m); try done. by destruct Hm as [->|[->|[f ->]]].
  - cbn [shard_exec]. destruct (get_sect s k HI) as (s1 & -> & Hq). simpl.
    destruct (value_of k (sh_iter s)) as [v|] eqn:Hv; simpl.
    { apply sok_quiet; try done. destruct g; simpl; by rewrite Hv. }
    assert (idle s1) as Hi1 by (intros t q; rewrite (q_ph _ _ Hq); apply Hi).
    pose proof (join_sect s1 k (q_inv _ _ Hq) Hi1) as Hj. rewrite (q_iter _ _ Hq), (q_used _ _ Hq) in Hj. specialize (Hj Hv).
    destruct (xexec s1 (XJoin k)) as [[s2 r2]|e]; simpl in Hj |- *; [|by destruct Hj as [-> Hj]].
    destruct Hj as (HI2 & Hc2 & Hp2 & p & -> & Hg & Hpe & Hall).
    destruct (cfg_eq _ _ Hc2) as [Hca Hta]. destruct (cfg_eq _ _ (q_cfg _ _ Hq)) as [Hca1 Hta1]. rewrite Hca1 in Hca. rewrite Hta1 in Hta.
    destruct g as [v wl|].
    + pose proof (fill_sect s2 k rs p v wl HI2 Hg Hpe Hall) as Hf.
      destruct (xexec s2 _) as [[s3 r3]|e]; simpl in Hf |- *.
      2:{ destruct Hf as [-> Ho]; simpl.
          exists k. split; [apply (keqb_refl _ LW)|]. rewrite Hta in Ho. by eapply overflow_start. }
      destruct Hf as (HI3 & Hc3 & Hi3 & es & rs' & -> & Hl). split; [done|by rewrite Hc3, Hc2; apply Hq| |done].
      simpl. rewrite Hv. exists k, es, rs'. split; [apply (keqb_refl _ LW)|]. split; [|done]. rewrite Hca, Hta in Hl. by eapply loads_start.
    + destruct (drop_sect s2 k p HI2 Hg Hpe Hall) as (s3 & -> & HI3 & Hc3 & Hi3 & Hit3). simpl.
      split; [done|by rewrite Hc3, Hc2; apply Hq| |done]. simpl. rewrite Hv. split; [|done]. by etrans.
  - cbn [shard_exec]. destruct (get_sect s k HI) as (s1 & -> & Hq). simpl.
    destruct (value_of k (sh_iter s)) as [v|] eqn:Hv; simpl.
    { apply sok_quiet; try done. destruct w; simpl; by rewrite Hv. }
    assert (idle s1) as Hi1 by (intros t q; rewrite (q_ph _ _ Hq); apply Hi).
    pose proof (join_sect s1 k (q_inv _ _ Hq) Hi1) as Hj. rewrite (q_iter _ _ Hq), (q_used _ _ Hq) in Hj. specialize (Hj Hv).
    destruct (xexec s1 (XJoin k)) as [[s2 r2]|e]; simpl in Hj |- *; [|by destruct Hj as [-> Hj]].
    destruct Hj as (HI2 & Hc2 & Hp2 & p & -> & Hg & Hpe & Hall).
    destruct (cfg_eq _ _ Hc2) as [Hca Hta]. destruct (cfg_eq _ _ (q_cfg _ _ Hq)) as [Hca1 Hta1]. rewrite Hca1 in Hca. rewrite Hta1 in Hta.
    destruct w as [v|].
    + pose proof (fill_sect s2 k rs p v false HI2 Hg Hpe Hall) as Hf.
      destruct (xexec s2 _) as [[s3 r3]|e]; simpl in Hf |- *.
      2:{ destruct Hf as [-> Ho]; simpl.
          exists k. split; [apply (keqb_refl _ LW)|]. rewrite Hta in Ho. by eapply overflow_start. }
      destruct Hf as (HI3 & Hc3 & Hi3 & es & rs' & -> & Hl). split; [done|by rewrite Hc3, Hc2; apply Hq| |done].
      simpl. rewrite Hv. exists es, rs'. split; [|done]. rewrite Hca, Hta in Hl. by eapply loads_start.
    + destruct (drop_sect s2 k p HI2 Hg Hpe Hall) as (s3 & -> & HI3 & Hc3 & Hi3 & Hit3). simpl.
      split; [done|by rewrite Hc3, Hc2; apply Hq| |done]. simpl. rewrite Hv. split; [|done]. by etrans.
Qed.

(* ---- the whole cache ---- *)
Definition concerns (mask : N) m (j : nat) : Prop := match s_key m with Some k => j = shard_idx mask k | None => True end.
Global Instance concerns_dec mask m j : Decision (concerns mask m j).
Proof. unfold concerns. destruct (s_key m); apply _. Defined.

Lemma all_ok s (m : cmd P) : Inv s → idle s → api (SAll m) → ∃ s', exec s m = Ok (s', plain RUnit) ∧ sok s (SAll m) (plain RUnit) s'.
Proof.
  intros HI Hi Hm. pose proof (shard_exec_spec s (SAll m) HI Hi Hm) as H. cbn [shard_exec] in H.
  assert (∃ s', exec s m = Ok (s', plain RUnit)) as [s' E].
  { destruct Hm as [->|[->|[f ->]]]; cbn [exec].
    - unfold sh_clear. destruct (sh_drain_spec s HI) as (s' & -> & _). simpl. eauto.
    - destruct (sh_reserve_spec s HI) as (s' & -> & _). simpl. eauto.
    - destruct (sh_retain_spec LW s f HI) as (s' & -> & _). simpl. eauto. }
  rewrite E in H. eauto.
Qed.
Lemma on_shards_spec (m : cmd P) c (js : list nat) : NoDup js → (∀ j, j ∈ js → ∃ s, sc_shards c !! j = Some s ∧ Inv s ∧ idle s) → api (SAll m) →
  ∃ c', on_shards c js (XCmd m) = Ok c' ∧
    sc_mask c' = sc_mask c ∧ length (sc_shards c') = length (sc_shards c) ∧
    ∀ j s', sc_shards c' !! j = Some s' → ∃ s, sc_shards c !! j = Some s ∧
      if decide (j ∈ js) then sok s (SAll m) (plain RUnit) s' else s' = s.
Proof.
  revert c. induction js as [|j js IH]; intros c Hnd Hall Hm; cbn [on_shards].
  { exists c. split_and!; try done. intros j s' Hs. exists s'. by rewrite decide_False by apply not_elem_of_nil. }
  apply NoDup_cons in Hnd as [Hj Hnd]. destruct (Hall j) as (s & Hs & HI & Hi); [left|].
  rewrite (on_shard_eq c j s) by done. unfold xexec. destruct (all_ok s m HI Hi Hm) as (s1 & -> & H). simpl.
  assert (j < length (sc_shards c)) as Hlt by (by eapply lookup_lt_Some).
  destruct (IH (with_shard c j s1) Hnd) as (c' & -> & H21 & H22 & H23).
  { intros i Hin. simpl. rewrite list_lookup_insert_ne by (intros ->; done). apply Hall. by right. }
  { done. }
  exists c'. simpl in H22. rewrite insert_length in H22. split_and!; try done.
  intros i s' Hs'. destruct (H23 i s' Hs') as (s2 & Hs2 & Hk). simpl in Hs2. destruct (decide (i = j)) as [->|Hne].
  + rewrite list_lookup_insert in Hs2 by done. injection Hs2 as <-. rewrite decide_False in Hk by done. subst s'. exists s. split; [done|].
    rewrite decide_True by left. done.
  + rewrite list_lookup_insert_ne in Hs2 by done. exists s2. split; [done|]. destruct (decide (i ∈ js)).
    * by rewrite decide_True by (by right).
    * by rewrite decide_False by (by intros [?|?]%elem_of_cons).
Qed.

Record sstep c m o c' : Prop := {
  sp_mask : sc_mask c' = sc_mask c;
  sp_len : length (sc_shards c') = length (sc_shards c);
  sp_shard : ∀ j s', sc_shards c' !! j = Some s' → ∃ s, sc_shards c !! j = Some s ∧ Inv s ∧
    if decide (concerns (sc_mask c) m j) then sok s m o s' else s' = s;
}.
Lemma sc_exec_spec b g cap e c m : SI b g cap e c → api m →
  wp (λ f, ∃ k s, s_key m = Some k ∧ sc_shards c !! shard_idx (sc_mask c) k = Some s ∧ sfails s m f) (sc_exec c m)
     (λ '(c', o), sstep c m o c' ∧ SI b g cap e c').
Proof.
  intros HS Hm.
  assert (∀ c' o, sstep c m o c' → SI b g cap e c') as Hsi.
  { intros c' o [A B C]. split; [by rewrite B, (si_len _ _ _ _ _ HS)|by rewrite A, (si_mask _ _ _ _ _ HS)|..].
    - intros j s' Hs'. destruct (C _ _ Hs') as (s & Hs & _ & Hk). destruct (si_inv _ _ _ _ _ HS _ _ Hs) as [HI Hc]. case_decide; [|by subst].
      split; [apply Hk|]. by rewrite (sk_cfg _ _ _ _ Hk).
    - intros j s' Hs'. destruct (C _ _ Hs') as (s & Hs & _ & Hk). case_decide; [apply Hk|]. subst. by eapply si_idle. }
  destruct (s_key m) as [k|] eqn:Hk.
  - destruct (lookup_lt_is_Some_2 _ _ (idx_lt _ _ _ _ c k HS)) as [s Hs].
    destruct (si_inv _ _ _ _ _ HS _ _ Hs) as [HI Hc]. pose proof (si_idle _ _ _ _ _ HS _ _ Hs) as Hi.
    rewrite (sc_exec_eq c k (shard_idx (sc_mask c) k) s m) by (done || by eapply shard_for_ok).
    pose proof (shard_exec_spec s m HI Hi Hm) as H. destruct (shard_exec s m) as [[s1 o]|f]; simpl in H |- *; [|by eauto].
    assert (sstep c m o (with_shard c (shard_idx (sc_mask c) k) s1)); [|split; [done|by eapply Hsi]].
    split; [done|simpl; by rewrite insert_length|].
    assert (∀ j, concerns (sc_mask c) m j ↔ j = shard_idx (sc_mask c) k) as Hcon by (intros j; unfold concerns; by rewrite Hk).
    intros j s'. simpl. destruct (decide (j = shard_idx (sc_mask c) k)) as [->|Hne].
    + rewrite list_lookup_insert by (by eapply idx_lt). intros [= <-]. exists s. rewrite decide_True by (by apply Hcon). done.
    + rewrite list_lookup_insert_ne by done. intros Hs'. exists s'. split; [done|]. rewrite decide_False by (by rewrite Hcon). split; [|done]. by eapply si_inv.
  - destruct m as [?|m|?|?]; try done. cbn [sc_exec]. unfold on_all.
    destruct (on_shards_spec m c (seq 0 (length (sc_shards c)))) as (c' & -> & A & B & C).
    { apply NoDup_seq. }
    { intros j Hj. apply elem_of_seq in Hj. destruct (lookup_lt_is_Some_2 (sc_shards c) j) as [s Hs]; [lia|].
      exists s. split; [done|]. split; [by eapply si_inv|by eapply si_idle]. }
    { done. }
    simpl. assert (sstep c (SAll m) (plain RUnit) c'); [|split; [done|by eapply Hsi]].
    split; [done|done|]. intros j s' Hs'. destruct (C _ _ Hs') as (s & Hs & Hk2). exists s. split; [done|]. split; [by eapply si_inv|].
    rewrite decide_True in Hk2; [|apply elem_of_seq; split; [lia|]; simpl; by eapply lookup_lt_Some].
    by rewrite decide_True.
Qed.

Lemma fresh_SI b g cap e : SI b g cap e (sc_fresh b g cap (2 ^ e)).
Proof.
  split; simpl; [by rewrite replicate_length|done|..]; intros j s [-> _]%lookup_replicate.
  - split; [apply sh_new_inv|done].
  - intros t q. unfold ph_at, its_of. simpl. by destruct t.
Qed.
Lemma sc_run_app c h1 h2 : sc_run c (h1 ++ h2) =
  (let! (c, os1) := sc_run c h1 in let! (c, os2) := sc_run c h2 in Ok (c, os1 ++ os2)).
Proof.
  revert c. induction h1 as [|m h1 IH]; intros c; simpl.
  - by destruct (sc_run c h2) as [[??]|].
  - destruct (sc_exec c m) as [[c1 o]|]; simpl; [|done]. rewrite IH.
    destruct (sc_run c1 h1) as [[c2 os1]|]; simpl; [|done]. by destruct (sc_run c2 h2) as [[??]|].
Qed.
Lemma sc_run_snoc c h m c2 os2 : sc_run c (h ++ [m]) = Ok (c2, os2) ↔
  ∃ c1 os o, sc_run c h = Ok (c1, os) ∧ sc_exec c1 m = Ok (c2, o) ∧ os2 = os ++ [o].
Proof.
  rewrite sc_run_app. destruct (sc_run c h) as [[c1 os]|]; simpl; [|split; [done|by intros (?&?&?&?&?)]].
  destruct (sc_exec c1 m) as [[c3 o]|] eqn:He; simpl.
  - split.
    + intros [= <- <-]. by exists c1, os, o.
    + intros (s1' & os' & o' & [= <- <-] & He' & ->). rewrite He in He'. by injection He' as <- <-.
  - split; [done|]. intros (s1' & os' & o' & [= <- <-] & He' & ->). by rewrite He in He'.
Qed.
Lemma s_history_ind (b g cap e : N) (Q : list (scmd P) → list out → scache → Prop) :
  Q [] [] (sc_fresh b g cap (2 ^ e)) →
  (∀ h os c m o c', s_history b g cap e h os c → SI b g cap e c → Q h os c → api m → sc_exec c m = Ok (c', o) →
     sstep c m o c' → SI b g cap e c' → Q (h ++ [m]) (os ++ [o]) c') →
  ∀ h os c, s_history b g cap e h os c → SI b g cap e c ∧ Q h os c.
Proof.
  intros H0 Hstep h. induction h as [|m h IH] using rev_ind; intros os c [Ha H].
  - simpl in H. injection H as <- <-. split; [apply fresh_SI|done].
  - apply Forall_app in Ha as [Ha Hm]. assert (api m) as Hm1 by (by inversion Hm). clear Hm; rename Hm1 into Hm. apply sc_run_snoc in H as (c1 & os1 & o & H1 & He & ->).
    destruct (IH _ _ (conj Ha H1)) as [HS HQ]. pose proof (sc_exec_spec _ _ _ _ _ _ HS Hm) as Hx. rewrite He in Hx. simpl in Hx.
    destruct Hx as [Hst HS']. split; [done|]. by eapply Hstep.
Qed.
Lemma s_history_SI b g cap e h os c : s_history b g cap e h os c → SI b g cap e c.
Proof. intros H. by destruct (s_history_ind b g cap e (λ _ _ _, True)) with (h := h) (os := os) (c := c). Qed.
Lemma s_history_step b g cap e h os c m c' o : s_history b g cap e h os c → api m → sc_exec c m = Ok (c', o) →
  SI b g cap e c ∧ sstep c m o c' ∧ SI b g cap e c'.
Proof.
  intros H Hm He. pose proof (s_history_SI _ _ _ _ _ _ _ H) as HS. split; [done|].
  pose proof (sc_exec_spec _ _ _ _ _ _ HS Hm) as Hx. by rewrite He in Hx.
Qed.
Lemma s_history_cfg b g cap e c j s : SI b g cap e c → sc_shards c !! j = Some s → sh_capacity s = cap ∧ sh_target_hot s = b ∧ Inv s.
Proof. intros HS Hs. destruct (si_inv _ _ _ _ _ HS _ _ Hs) as [HI Hc]. unfold cfg in Hc. by injection Hc. Qed.

(* ---- from s_does to does ---- *)
Lemma s_does_does cap budget (d : contents P) m o (d' : contents P) : s_does cap budget d m o d' →
  ∃ o', does cap budget d (as_cmd m) o' d' ∧ o_log o' = o_log o ∧ effects (as_cmd m) o' = effects (as_cmd m) o.
Proof.
  destruct m as [k m|m|rs k g|rs k [v|]]; simpl; try by eauto.
  destruct (value_of k d) as [v0|]; [by eauto|]. intros (es & rs' & Hl & ->). exists (reply rs es rs' false (RVal (value_of k d')) true). split; [|done].
  exists k, es, rs'. split; [apply (keqb_refl _ LW)|]. done.
Qed.
Lemma log_hooks (o o' : out) : o_log o' = o_log o → hooks_of o' = hooks_of o.
Proof. unfold hooks_of. by intros ->. Qed.

(* ---- where keys are ---- *)
Definition located c : Prop := ∀ j s k v, sc_shards c !! j = Some s → (k, v) ∈ sh_iter s → shard_idx (sc_mask c) k = j.
Lemma creates_key m k : api m → creates (as_cmd m) k = true → ∃ k', s_key m = Some k' ∧ keqb P k k' = true.
Proof.
  destruct m as [k' m|m|rs k' [v wl|]|rs k' [v|]]; simpl; try done; try by eauto.
  - intros [Hs Hk]. destruct m; try done; simpl in *. injection Hk as ->. eauto.
  - by intros [->|[->|[f ->]]].
Qed.
Lemma s_history_located b g cap e h os c : s_history b g cap e h os c → located c.
Proof.
  intros H. eapply (s_history_ind b g cap e (λ _ _ c, located c)); [..|exact H].
  - intros j s k v [-> _]%lookup_replicate Hin. by apply elem_of_nil in Hin.
  - clear h os c H. intros h os c m o c' _ HS IH Hm _ [A B C] _ j s' k v Hs' Hin. rewrite A. destruct (C _ _ Hs') as (s & Hs & _ & Hk).
    case_decide as Hc; [|subst; by eapply IH].
    destruct (s_does_does _ _ _ _ _ _ (sk_does _ _ _ _ Hk)) as (o' & Hd & _).
    destruct (creates (as_cmd m) k) eqn:Hcr.
    + destruct (creates_key m k Hm Hcr) as (k' & Hk' & Hkk). unfold concerns in Hc. rewrite Hk' in Hc. rewrite Hc. by apply idx_keqb.
    + destruct (find_key k (sh_iter s)) as [[ko vo]|] eqn:Hf.
      * apply find_key_Some in Hf as [Hin' Hk']. simpl in Hk'. rewrite (idx_keqb _ k ko) by done. by eapply IH.
      * pose proof (does_absent LW _ _ _ _ _ _ _ Hd Hcr Hf) as Hf'. pose proof (SeqProofs2.find_none _ _ _ _ Hf' Hin) as Hx.
        by rewrite (keqb_refl _ LW) in Hx.
Qed.
Lemma items_elem c (q : K * V) : q ∈ sc_items c ↔ ∃ j s, sc_shards c !! j = Some s ∧ q ∈ sh_iter s.
Proof.
  unfold sc_items. rewrite elem_of_list_In, in_concat. split.
  - intros (l & Hl & Hin). apply elem_of_list_In, elem_of_list_fmap in Hl as (s & -> & Hs). apply elem_of_list_lookup in Hs as [j Hj].
    exists j, s. split; [done|]. by apply elem_of_list_In.
  - intros (j & s & Hs & Hin). exists (sh_iter s). rewrite <-!elem_of_list_In. split; [|done]. apply elem_of_list_fmap. exists s. split; [done|].
    apply elem_of_list_lookup. eauto.
Qed.

(* ---- the last value written ---- *)
Definition about (k : K) (f : effect P) : Prop :=
  match f with Wrote k' _ | Mutated k' _ | Erased k' => keqb P k k' = true | _ => True end.
Lemma came_from_other (fs l : list (effect P)) k v : came_from fs k v → Forall (λ f, ¬ about k f) l → came_from (fs ++ l) k v.
Proof.
  intros H Hl. revert fs H. induction Hl as [|f l Hf Hl IH]; intros fs H; [by rewrite app_nil_r|].
  rewrite (app_assoc fs [f] l : fs ++ f :: l = _). apply IH. 
  destruct f as [k' v'|k' g|k'|g|]; simpl in Hf; try done; destruct (keqb P k k') eqn:E; try done.
  - by apply cf_wrote_other.
  - by apply cf_mutated_other.
  - by apply cf_erased_other.
Qed.
Definition just (k : K) (f : effect P) : Prop :=
  match f with Wrote k' _ | Mutated k' _ | Erased k' => keqb P k k' = true | _ => False end.
Lemma effects_key m o k : api m → s_key m = Some k → Forall (λ f, just k f) (effects (as_cmd m) o).
Proof.
  intros Hm Hk. pose proof (keqb_refl _ LW k) as Hr.
  destruct m as [k' m|m|rs k' [v wl|]|rs k' [v|]]; simpl in *; try done; injection Hk as ->.
  - destruct Hm as [Hs Hk]. destruct m; try done; simpl in *; try injection Hk as ->; try by repeat constructor.
    destruct (o_ret o) as [| | |[]| | |]; by repeat constructor.
  - destruct (o_ret o); by repeat constructor.
  - by destruct (o_ret o); repeat constructor.
  - destruct (o_called o); by repeat constructor.
Qed.
Lemma s_past_snoc (h : list (scmd P)) (os : list out) m o : length h = length os → s_past (h ++ [m]) (os ++ [o]) = s_past h os ++ effects (as_cmd m) o.
Proof.
  revert os. induction h as [|m' h IH]; intros [|o' os]; simpl; try done; [by rewrite app_nil_r|].
  intros [= H]. rewrite IH by done. by rewrite app_assoc.
Qed.
Lemma s_run_length c h c' os : sc_run c h = Ok (c', os) → length os = length h.
Proof.
  revert c os. induction h as [|m h IH]; intros c os; simpl; [by intros [= <- <-]|].
  destruct (sc_exec c m) as [[c1 o]|]; simpl; [|done]. destruct (sc_run c1 h) as [[c2 os1]|] eqn:E; simpl; [|done].
  intros [= <- <-]. simpl. f_equal. by eapply IH.
Qed.
Lemma s_history_sourced b g cap e h os c : s_history b g cap e h os c → sourced (s_past h os) (sc_items c).
Proof.
  intros H. eapply (s_history_ind b g cap e (λ h os c, sourced (s_past h os) (sc_items c))); [..|exact H].
  - intros k v Hin. apply items_elem in Hin as (j & s & [-> _]%lookup_replicate & Hin). by apply elem_of_nil in Hin.
  - clear h os c H. intros h os c m o c' H HS IH Hm _ [A B C] _ k v Hin.
    rewrite s_past_snoc by (symmetry; eapply s_run_length; apply H).
    apply items_elem in Hin as (j & s' & Hs' & Hin). destruct (C _ _ Hs') as (s & Hs & _ & Hk).
    case_decide as Hc.
    + destruct (s_does_does _ _ _ _ _ _ (sk_does _ _ _ _ Hk)) as (o' & Hd & _ & <-).
      refine (sourced_does LW _ _ _ _ _ _ _ Hd _ k v Hin). intros k0 v0 H0. apply IH. apply items_elem. eauto.
    + subst s'. apply came_from_other; [apply IH, items_elem; eauto|]. unfold concerns in Hc.
      destruct (s_key m) as [km|] eqn:Hkm; [|done]. eapply Forall_impl; [by apply effects_key|].
      intros f Hf Hf2. apply Hc. pose proof (s_history_located _ _ _ _ _ _ _ H _ _ _ _ Hs Hin) as <-.
      destruct f as [k' v'|k' f|k'|f|]; simpl in *; try done; apply idx_keqb; (eapply (keqb_trans _ LW); [exact Hf2|by apply (keqb_sym _ LW)]).
Qed.

(* ---- lookups ---- *)
Lemma items_value b g cap e h os c k : s_history b g cap e h os c →
  ∃ s, sc_shards c !! shard_idx (sc_mask c) k = Some s ∧ Inv s ∧ idle s ∧
    ∀ v, value_of k (sh_iter s) = Some v ↔ ∃ k', (k', v) ∈ sc_items c ∧ keqb P k k' = true.
Proof.
  intros H. pose proof (s_history_SI _ _ _ _ _ _ _ H) as HS.
  destruct (lookup_lt_is_Some_2 _ _ (idx_lt _ _ _ _ c k HS)) as [s Hs]. destruct (s_history_cfg _ _ _ _ _ _ _ HS Hs) as (_ & _ & HI).
  exists s. split_and!; try done; [by eapply si_idle|]. intros v. rewrite (value_in LW) by (by apply (inv_ukeys LW)). split.
  - intros (k' & Hin & Hk). exists k'. split; [|done]. apply items_elem. eauto.
  - intros (k' & Hin & Hk). apply items_elem in Hin as (j & s2 & Hs2 & Hin). exists k'. split; [|done].
    pose proof (s_history_located _ _ _ _ _ _ _ H _ _ _ _ Hs2 Hin) as Hj. rewrite <-(idx_keqb _ _ _ Hk) in Hj. subst j. by simplify_eq.
Qed.
Lemma key_exec b g cap e c k (m : cmd P) s : SI b g cap e c → sc_shards c !! shard_idx (sc_mask c) k = Some s →
  sc_exec c (SKey k m) = (let! (s, o) := exec s m in Ok (with_shard c (shard_idx (sc_mask c) k) s, o)).
Proof. intros HS Hs. rewrite (sc_exec_eq c k (shard_idx (sc_mask c) k) s); try done. by eapply shard_for_ok. Qed.

(* ---- absence ---- *)
Definition gone c k : Prop := ∀ k' v, (k', v) ∈ sc_items c → keqb P k k' = false.
Lemma gone_shard c j s k : gone c k → sc_shards c !! j = Some s → find_key k (sh_iter s) = None.
Proof. intros Hg Hs. apply find_key_None. intros [k' v'] Hin. simpl. apply (Hg k' v'). apply items_elem. eauto. Qed.
Lemma gone_step c m o c' k : sstep c m o c' → gone c k → creates (as_cmd m) k = false → gone c' k.
Proof.
  intros [A B C] Hg Hc k' v Hin. apply items_elem in Hin as (j & s' & Hs' & Hin). destruct (C _ _ Hs') as (s & Hs & _ & Hk).
  case_decide; [|subst; eapply (Hg k' v), items_elem; eauto].
  destruct (s_does_does _ _ _ _ _ _ (sk_does _ _ _ _ Hk)) as (o' & Hd & _).
  eapply SeqProofs2.find_none; [|exact Hin]. eapply (does_absent LW); [done|done|]. by eapply gone_shard.
Qed.
Lemma gone_run b g cap e c h c' os k : SI b g cap e c → Forall api h → sc_run c h = Ok (c', os) → gone c k →
  Forall (λ m, creates (as_cmd m) k = false) h → gone c' k.
Proof.
  intros HS Ha Hr Hg Hf. revert c os HS Hr Hg. induction h as [|m h IH]; intros c os HS Hr Hg; simpl in Hr; [by injection Hr as <- _|].
  apply Forall_cons in Ha as [Hm Ha]. apply Forall_cons in Hf as [Hf1 Hf].
  pose proof (sc_exec_spec _ _ _ _ _ _ HS Hm) as Hx. destruct (sc_exec c m) as [[c1 o]|]; simpl in *; [|done]. destruct Hx as [Hst HS1].
  destruct (sc_run c1 h) as [[c2 os1]|] eqn:E; simpl in Hr; [|done]. injection Hr as <- <-.
  eapply IH; try done. by eapply gone_step.
Qed.
Lemma erases_key m k (d : contents P) : api m → erases (as_cmd m) k d → ∀ mask, concerns mask m (shard_idx mask k).
Proof.
  destruct m as [k' m|m|rs k' [v wl|]|rs k' [v|]]; simpl; try done. intros [Hs Hk]. destruct m; try done; simpl in *.
  injection Hk as ->. intros Hk mask. unfold concerns; simpl. by apply idx_keqb.
Qed.
Lemma erases_gone b g cap e h os c m c' o k : s_history b g cap e h os c → api m → sc_exec c m = Ok (c', o) →
  erases (as_cmd m) k (sc_items c) → gone c' k.
Proof.
  intros H Hm He Her. destruct (s_history_step _ _ _ _ _ _ _ _ _ _ H Hm He) as (HS & Hst & HS'). pose proof Hst as [A B C].
  assert (located c') as Hloc.
  { eapply (s_history_located b g cap e (h ++ [m]) (os ++ [o])). destruct H as [Ha H]. split; [apply Forall_app; by repeat constructor|]. apply sc_run_snoc. by exists c, os, o. }
  intros k' v Hin. destruct (keqb P k k') eqn:Hk; [|done]. apply items_elem in Hin as (j & s' & Hs' & Hin). destruct (C _ _ Hs') as (s & Hs & _ & Hok).
  assert (j = shard_idx (sc_mask c) k) as ->.
  { rewrite (idx_keqb _ _ _ Hk), <-A. symmetry. by eapply Hloc. }
  rewrite decide_True in Hok by (by eapply erases_key).
  destruct (s_does_does _ _ _ _ _ _ (sk_does _ _ _ _ Hok)) as (o' & Hd & _).
  rewrite <-Hk. eapply SeqProofs2.find_none; [|exact Hin]. eapply (does_erases LW); [done|].
  destruct (as_cmd m); simpl in *; try done. intros k0 v0 Hin0. apply Her. apply items_elem. eauto.
Qed.

(* ---- sums ---- *)
Lemma sum64_eq (l : list N) : sum64 l = if (foldr N.add 0%N l <? two64)%N then Ok (foldr N.add 0%N l) else Fail WeightOvf.
Proof.
  induction l as [|n l IH]; simpl; [done|]. rewrite IH. unfold wadd. destruct (N.ltb_spec (foldr N.add 0%N l) two64); simpl; [done|].
  destruct (N.ltb_spec (n + foldr N.add 0%N l) two64); [lia|done].
Qed.
Lemma items_length (l : list shard) : (∀ s, s ∈ l → Inv s) → foldr N.add 0%N (sh_len <$> l) = N.of_nat (length (concat (sh_iter <$> l))).
Proof.
  induction l as [|s l IH]; intros HI; csimpl; [done|]. rewrite IH by (intros; apply HI; by right).
  rewrite (len_exact s) by (apply HI; left). rewrite app_length. lia.
Qed.
Lemma wsum_app (d1 d2 : contents P) : wsum (d1 ++ d2) = (wsum d1 + wsum d2)%N.
Proof. induction d1 as [|[k v] d1 IH]; [done|]. rewrite <-app_comm_cons. rewrite !wsum_cons, IH. lia. Qed.
Lemma items_wsum (l : list shard) : (∀ s, s ∈ l → Inv s) →
  (let! l := seq_res (sh_weight <$> l) in sum64 l) =
    if (wsum (concat (sh_iter <$> l)) <? two64)%N then Ok (wsum (concat (sh_iter <$> l))) else Fail WeightOvf.
Proof.
  intros HI. assert (∀ l : list shard, (∀ s, s ∈ l → Inv s) → seq_res (sh_weight <$> l) =
    if forallb (λ s, (wsum (sh_iter s) <? two64)%N) l then Ok ((λ s, wsum (sh_iter s)) <$> l) else Fail WeightOvf) as Hs.
  { clear l HI. induction l as [|s l IH]; intros HI; csimpl; [done|]. rewrite (weight_exact s) by (apply HI; left).
    destruct (wsum (sh_iter s) <? two64)%N; simpl; [|done]. rewrite IH by (intros; apply HI; by right). by destruct (forallb _ l). }
  rewrite Hs by done. clear Hs HI.
  assert (foldr N.add 0%N ((λ s, wsum (sh_iter s)) <$> l) = wsum (concat (sh_iter <$> l))) as He.
  { induction l as [|s l IH]; csimpl; [done|]. by rewrite IH, wsum_app. }
  rewrite <-He. destruct (forallb _ l) eqn:Hf; simpl; [apply sum64_eq|].
  destruct (N.ltb_spec (foldr N.add 0%N ((λ s, wsum (sh_iter s)) <$> l)) two64) as [Hlt|]; [|done]. exfalso.
  clear He. induction l as [|s l IH]; csimpl in *; [done|]. apply andb_false_iff in Hf as [Hf|Hf]; [apply N.ltb_ge in Hf; lia|].
  apply IH; [done|lia].
Qed.
Lemma items_uwsum b g cap e h os c : s_history b g cap e h os c → (b ≤ cap)%N → ∀ j s, sc_shards c !! j = Some s → (uwsum (sh_iter s) ≤ cap)%N.
Proof.
  intros H Hb. eapply (s_history_ind b g cap e (λ _ _ c, ∀ j s, sc_shards c !! j = Some s → (uwsum (sh_iter s) ≤ cap)%N)); [..|exact H].
  - intros j s [-> _]%lookup_replicate. unfold uwsum, sh_iter; simpl. lia.
  - clear h os c H. intros h os c m o c' H HS IH Hm _ [A B C] _ j s' Hs'. destruct (C _ _ Hs') as (s & Hs & _ & Hk).
    case_decide; [|subst; by eapply IH].
    destruct (s_does_does _ _ _ _ _ _ (sk_does _ _ _ _ Hk)) as (o' & Hd & _).
    destruct (s_history_cfg _ _ _ _ _ _ _ HS Hs) as (E1 & E2 & _). rewrite E1, E2 in Hd.
    eapply does_uwsum; [exact Hb| |exact Hd|by eapply IH].
    destruct m as [k' m|m|rs k' [v wl|]|rs k' [v|]]; simpl; try done.
    + destruct Hm as [Hm _]. by destruct m.
    + by destruct Hm as [->|[->|[f ->]]].
Qed.

(* ---- conservation ---- *)
Lemma items_split c j s : sc_shards c !! j = Some s → ∃ rest, sc_items c ≡ₚ sh_iter s ++ rest ∧
  ∀ s', sc_items (with_shard c j s') ≡ₚ sh_iter s' ++ rest.
Proof.
  intros Hs. exists (concat (sh_iter <$> take j (sc_shards c)) ++ concat (sh_iter <$> drop (S j) (sc_shards c))).
  unfold sc_items. split.
  - rewrite <-(take_drop_middle _ _ _ Hs) at 1. rewrite fmap_app, concat_app. csimpl. rewrite !app_assoc.
    by rewrite (Permutation_app_comm (concat (sh_iter <$> take j (sc_shards c))) (sh_iter s)).
  - intros s'. simpl. rewrite insert_take_drop by (by eapply lookup_lt_Some).
    rewrite fmap_app, concat_app. csimpl. rewrite !app_assoc.
    by rewrite (Permutation_app_comm (concat (sh_iter <$> take j (sc_shards c))) (sh_iter s')).
Qed.
(* the shard of the key before and after a keyed call *)
Lemma keyed_step b g cap e h os c m k c' o : s_history b g cap e h os c → api m → s_key m = Some k → sc_exec c m = Ok (c', o) →
  ∃ s s', sc_shards c !! shard_idx (sc_mask c) k = Some s ∧ c' = with_shard c (shard_idx (sc_mask c) k) s' ∧
    shard_exec s m = Ok (s', o) ∧ Inv s ∧ sok s m o s' ∧ sh_capacity s = cap ∧ sh_target_hot s = b.
Proof.
  intros H Hm Hk He. pose proof (s_history_SI _ _ _ _ _ _ _ H) as HS.
  destruct (lookup_lt_is_Some_2 _ _ (idx_lt _ _ _ _ c k HS)) as [s Hs]. destruct (s_history_cfg _ _ _ _ _ _ _ HS Hs) as (Hc1 & Hc2 & HI).
  rewrite (sc_exec_eq c k (shard_idx (sc_mask c) k) s m) in He by (done || by eapply shard_for_ok).
  pose proof (shard_exec_spec s m HI (si_idle _ _ _ _ _ HS _ _ Hs) Hm) as Hx.
  destruct (shard_exec s m) as [[s' o']|] eqn:E; simpl in *; [|done]. injection He as <- <-. exists s, s'. done.
Qed.
Lemma used_slots s : (used s ≤ slots s)%N.
Proof.
  unfold used, slots. induction (its_of s) as [|[en|] l IH]; unfold esum in *; cbn [foldr oget length] in *; unfold one in *; lia.
Qed.
Lemma ukeys_app (d1 d2 : contents P) : ukeys d1 → ukeys d2 → (∀ p q : K * V, p ∈ d1 → q ∈ d2 → keqb P p.1 q.1 = false) → ukeys (d1 ++ d2).
Proof.
  induction d1 as [|p d1 IH]; simpl; [done|]. intros [H1 H2] H3 H4. split.
  - apply Forall_app. split; [done|]. apply Forall_forall. intros q Hq. apply H4; [left|done].
  - apply IH; try done. intros p' q Hp Hq. apply H4; [by right|done].
Qed.
End syncseq.
