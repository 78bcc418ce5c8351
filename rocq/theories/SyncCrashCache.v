(* Panics in the sync cache: the whole cache. *)
From Verif Require Export SyncCrashCalls CrashWit.
Local Open Scope nat_scope.

Section cache.
Context {P : Params} (LW : Lawful P) (PI : ptr_ids P = true).
Context (std : bool).
Notation K := (K P). Notation V := (V P). Notation RS := (RS P). Notation out := (out P).
Notation shard := (shard P). Notation pshard := (pshard P). Notation pcache := (pcache P).
Implicit Types (s : shard) (k : K) (v : V) (rs : RS) (p : plh) (x : pshard) (m : scmd P) (q : spoint) (c : pcache) (h : list (pevent P)).

Context (bb gg cc ee : N).
(* what a load pending in the j-th shard is *)
Definition abj h (j : nat) k v : Prop := left_behind bb h k v ∧ shard_idx (2 ^ ee - 1) k = j.
Lemma behind_cong h j k k' v : keqb P k k' = true → abj h j k' v → abj h j k v.
Proof.
  intros Hk [(h1 & m & k2 & h2 & -> & H2 & H3 & H4) Hj]. split; [|by rewrite (idx_keqb LW _ k k')].
  exists h1, m, k2, h2. split_and!; [done|done|by eapply (keqb_trans _ LW)|].
  intros m' o Hin Hc. apply (H4 m' o Hin). destruct m' as [k0 mc|mc| |]; try done; destruct mc; try done; simpl in *.
  - eapply (keqb_trans _ LW); [|done]. by apply (keqb_sym _ LW).
  - destruct Hc. split; [|done]. eapply (keqb_trans _ LW); [|done]. by apply (keqb_sym _ LW).
Qed.
Lemma behind_panic h m q k v : left_behind bb h k v → left_behind bb (h ++ [Panicked m q]) k v.
Proof.
  intros (h1 & m1 & k2 & h2 & -> & H2 & H3 & H4). exists h1, m1, k2, (h2 ++ [Panicked m q]). split_and!; [by rewrite <-app_assoc|done|done|].
  intros m' o [Hin|Hin]%elem_of_app; [by apply (H4 m' o)|]. by apply elem_of_list_singleton in Hin.
Qed.
Lemma behind_ret h m o k v : left_behind bb h k v → ¬ cancels bb m k → left_behind bb (h ++ [Returned m o]) k v.
Proof.
  intros (h1 & m1 & k2 & h2 & -> & H2 & H3 & H4) Hn. exists h1, m1, k2, (h2 ++ [Returned m o]). split_and!; [by rewrite <-app_assoc|done|done|].
  intros m' o' [Hin|Hin]%elem_of_app; [by apply (H4 m' o')|]. apply elem_of_list_singleton in Hin. by injection Hin as -> ->.
Qed.
Notation lives h j := (SyncCrashCalls.live (abj h j)).

(* ---- a poisoned shard ---- *)
Lemma locked_poisoned {A} w x (f : shard → Crash.M (shard * A)) : ps_poisoned x = true → locked std w x f = ([(SPoisoned, x)], Fail Panic).
Proof. intros H. unfold locked. by rewrite H. Qed.
Lemma poisoned_spec x m : ps_poisoned x = true →
  (∀ q x', (q, x') ∈ (ps_exec std x m).1 → x' = x) ∧ (SPoisoned, x) ∈ (ps_exec std x m).1 ∧ (ps_exec std x m).2 = Fail Panic.
Proof.
  intros H.
  assert (∀ keyed (mc : cmd P), (∀ q x', (q, x') ∈ (p_plain std x keyed mc).1 → x' = x) ∧ (SPoisoned, x) ∈ (p_plain std x keyed mc).1 ∧ (p_plain std x keyed mc).2 = Fail Panic) as Hpl.
  { intros keyed mc. unfold p_plain. rewrite locked_poisoned by done. unfold tbind, twhen, tpt, tret. destruct (opens mc), keyed; simpl.
    all: split_and!; [|set_solver|done].
    all: intros q x'; rewrite ?elem_of_cons, ?elem_of_nil; naive_solver. }
  destruct m as [k mc|mc|rs k g|rs k w]; cbn [ps_exec]; [apply Hpl|apply Hpl|..].
  all: unfold p_value_or_guard; rewrite locked_poisoned by done; unfold tbind, tpt; simpl.
  all: split_and!; [|set_solver|done].
  all: intros q x'; rewrite ?elem_of_cons, ?elem_of_nil; naive_solver.
Qed.

(* ---- what poisons ---- *)
Definition pts {A} (Q : spoint → pshard → Prop) (t : T pshard A) : Prop := ∀ q x, (q, x) ∈ t.1 → Q q x.
Lemma pts_bind {A C} Q (t : T pshard A) (f : A → T pshard C) : pts Q t → (∀ a, pts Q (f a)) → pts Q (tbind t f).
Proof.
  intros H1 H2 q x. unfold tbind. destruct t as [l [a|e]]; simpl in *; [|apply H1].
  intros [Hin|Hin]%elem_of_app; [by apply H1|by eapply H2].
Qed.
Lemma pts_ret {A} Q (r : res A) : pts Q (tlift r).
Proof. intros q x Hin. by apply elem_of_nil in Hin. Qed.
Lemma pts_pt (Q : spoint → pshard → Prop) q x : Q q x → pts Q (tpt q x).
Proof. intros H q' x' Hin. apply elem_of_list_singleton in Hin. by injection Hin as -> ->. Qed.
Lemma pts_when Q b (t : T pshard ()) : (b = true → pts Q t) → pts Q (twhen b t).
Proof. intros H. destruct b; [by apply H|apply pts_ret]. Qed.
Lemma pts_unwind (Q : spoint → pshard → Prop) q x p : (∀ x, Q q x) → pts Q (unwind q x p).
Proof. intros H q' x'. unfold unwind. destruct (p_drop x p); simpl; [|by intros ?%elem_of_nil]. intros Hin%elem_of_list_singleton. by injection Hin as -> ->. Qed.
Definition must m q x : Prop := must_poison m q = true → ps_poisoned x = true.
Lemma pts_write {A} m x (f : shard → Crash.M (shard * A)) : std = true → pts (must m) (locked std true x f).
Proof.
  intros Hs q x' Hin. unfold locked in Hin. destruct (ps_poisoned x) eqn:Hp.
  - apply elem_of_list_singleton in Hin. injection Hin as -> ->. by destruct m.
  - simpl in Hin. apply elem_of_list_fmap in Hin as [[q' s'] [E _]]. injection E as -> ->. intros _. unfold ps_poison. simpl. by rewrite Hs, orb_true_r.
Qed.
Lemma pts_read {A} m x (f : shard → Crash.M (shard * A)) : (∀ (q : point) s', (q, s') ∈ (f (ps_shard x)).1 → must_poison m (SP q) = false) →
  pts (must m) (locked std false x f).
Proof.
  intros Hm q x' Hin. unfold locked in Hin. destruct (ps_poisoned x) eqn:Hp.
  - apply elem_of_list_singleton in Hin. injection Hin as -> ->. by destruct m.
  - simpl in Hin. apply elem_of_list_fmap in Hin as [[q' s'] [E Hin]]. injection E as -> ->. intros H. by rewrite (Hm _ _ Hin) in H.
Qed.
Lemma must_spec x m q x' : std = true → (q, x') ∈ (ps_exec std x m).1 → must_poison m q = true → ps_poisoned x' = true.
Proof.
  intros Hs. cut (pts (must m) (ps_exec std x m)); [intros H; apply H|]. clear q x'.
  assert (∀ m keyed (mc : cmd P), match m with SKey _ m | SAll m => m = mc | _ => False end → pts (must m) (p_plain std x keyed mc)) as Hpl.
  { clear m. intros m keyed mc Hm. unfold p_plain. apply pts_bind; [|intros _; apply pts_bind; [|intros _; apply pts_bind; [|intros [x1 o]; apply pts_bind; [|intros _; apply pts_bind; [|intros _; apply pts_ret]]]]].
    1-2,4-5: apply pts_when; intros _; apply pts_pt; by destruct m.
    destruct (reads mc) eqn:Hr; simpl; [|by apply pts_write]. apply pts_read. intros q s' _. destruct m as [k m|m| |]; try done; subst; destruct q; simpl; rewrite ?Hr; done. }
  assert (∀ k, match m with SValueOrGuard _ _ _ | SGetOrInsert _ _ _ => True | _ => False end → pts (must m) (p_value_or_guard std x k)) as Hv.
  { intros k Hm. unfold p_value_or_guard. apply pts_bind; [apply pts_pt; by destruct m|intros _]. apply pts_bind.
    { apply pts_read. intros q s'. unfold c_get, Crash.mbind. simpl. intros [E|[]%elem_of_nil]%elem_of_cons. injection E as -> ->. by destruct m. }
    intros [x1 [v|]]; [apply pts_bind; [apply pts_pt; by destruct m|intros _; apply pts_ret]|].
    apply pts_bind; [by apply pts_write|]. intros [x2 [[t v]|[p [|]]]].
    - apply pts_bind; [apply pts_pt; by destruct m|intros _; apply pts_ret].
    - apply pts_ret.
    - destruct (SyncCrash.assoc (ph_id p) (ps_filled x2)); [|apply pts_ret]. apply pts_bind; [apply pts_pt; by destruct m|intros _; apply pts_ret]. }
  assert (∀ x rs p v wl, match m with SValueOrGuard _ _ _ | SGetOrInsert _ _ _ => True | _ => False end → pts (must m) (p_guard_insert std x rs p v wl)) as Hg.
  { intros x1 rs p v wl Hm. unfold p_guard_insert. apply pts_bind; [apply pts_when; intros _; apply pts_unwind; by destruct m|intros _].
    apply pts_bind; [apply pts_pt; by destruct m|intros _]. apply pts_bind; [by apply pts_write|]. intros [x2 [l [v'|]]]; [apply pts_ret|].
    apply pts_bind; [apply pts_when; intros _; apply pts_pt; by destruct m|intros _; apply pts_ret]. }
  destruct m as [k mc|mc|rs k g|rs k w]; cbn [ps_exec]; [by apply Hpl|by apply Hpl|..].
  - apply pts_bind; [by apply Hv|]. intros [x1 [v|p]]; [apply pts_ret|]. destruct g as [v wl|]; [by apply Hg|]. simpl. apply pts_bind; [apply pts_ret|]. intros; apply pts_ret.
  - apply pts_bind; [by apply Hv|]. intros [x1 [v|p]]; [apply pts_ret|]. apply pts_bind; [by apply pts_unwind|intros _]. destruct w as [v|].
    + apply pts_bind; [by apply pts_unwind|intros _]. apply pts_bind; [by apply Hg|]. intros [??]; apply pts_ret.
    + simpl. apply pts_bind; [apply pts_bind; [apply pts_ret|]; intros; apply pts_ret|]. intros [??]; apply pts_ret.
Qed.

(* ---- without panics the program is that of Sync.v ---- *)
Lemma er_locked {A} w x (f : shard → Crash.M (shard * A)) : ps_poisoned x = false →
  (locked std w x f).2 = (let! (s, a) := (f (ps_shard x)).2 in Ok (ps_set x s, a)).
Proof. intros H. unfold locked. by rewrite H. Qed.
Lemma tbind_2 {X A C} (t : T X A) (f : A → T X C) : (tbind t f).2 = (let! a := t.2 in (f a).2).
Proof. unfold tbind. by destruct t as [l [a|e]]. Qed.
Lemma twhen_2 {X} b (t : T X ()) : t.2 = Ok () → (twhen b t).2 = Ok ().
Proof. by destruct b. Qed.
Lemma er_plain x keyed (mc : cmd P) : ps_poisoned x = false → sync_cmd mc = true →
  (p_plain std x keyed mc).2 = (let! (s, o) := exec (ps_shard x) mc in Ok (ps_set x s, o)).
Proof.
  intros H Hm. unfold p_plain. rewrite tbind_2, twhen_2 by done. cbn [rbind]. rewrite tbind_2, twhen_2 by done. cbn [rbind].
  rewrite tbind_2, er_locked by done. rewrite er_inner by done. destruct (exec (ps_shard x) mc) as [[s o]|e]; cbn [rbind]; [|done].
  rewrite tbind_2, twhen_2 by done. cbn [rbind]. by rewrite tbind_2, twhen_2 by done.
Qed.
Lemma er_drop x p : ps_poisoned x = false → p_drop x p = (let! (s, _) := xexec (ps_shard x) (XDrop p) in Ok (ps_set x s)).
Proof. intros H. unfold p_drop. rewrite H. cbn [xexec]. by destruct (remove_placeholder (ps_shard x) p). Qed.
Lemma er_guard_insert x rs p v wl : ps_poisoned x = false →
  (p_guard_insert std x rs p v wl).2 =
  (let! (s, r) := xexec (ps_shard x) (XFill rs p false v wl) in match r with XO o => Ok (ps_set (ps_fill x p v) s, o) | _ => Fail Panic end).
Proof.
  intros H. unfold p_guard_insert. rewrite tbind_2, twhen_2 by done. cbn [rbind]. rewrite tbind_2. cbn [rbind tpt snd].
  rewrite tbind_2, er_locked by done. cbv beta. change (ps_shard (ps_fill x p v)) with (ps_shard x). unfold Crash.mbind. rewrite er_replace. cbn [xexec].
  destruct (replace_placeholder (ps_shard x) (Lcs rs []) p false v) as [[[s l] [v'|]]|e]; cbn [rbind lift snd]; [done| |done].
  by rewrite tbind_2, twhen_2 by done.
Qed.
(* what the plain program may do with the list of states *)
Definition with_fill x (r : res (shard * out)) (t : res (pshard * out)) : Prop :=
  match r with
  | Ok (s, o) => ∃ x', t = Ok (x', o) ∧ ps_shard x' = s ∧ ps_poisoned x' = false
  | Fail NoFuel => True
  | Fail e => t = Fail e
  end.
Lemma er_exec_shard x m : ps_poisoned x = false → api m → with_fill x (shard_exec (ps_shard x) m) (ps_exec std x m).2.
Proof.
  intros H Hm.
  assert (∀ k (f : pshard * (V + plh) → T pshard (pshard * out)) (g : shard → V + plh → res (shard * out)),
    (∀ x r, ps_poisoned x = false → with_fill x (g (ps_shard x) r) (f (x, r)).2) →
    with_fill x (let! (s, r) := xexec (ps_shard x) (XCmd (CGet k)) in
      match r with
      | XO (Out (RVal (Some v)) _ _ _) => g s (inl v)
      | XO _ => let! (s, r) := xexec s (XJoin k) in match r with XHit v => g s (inl v) | XNew p => g s (inr p) | _ => Fail NoFuel end
      | _ => Fail Panic
      end) (tbind (p_value_or_guard std x k) f).2) as Hvog.
  { intros k f g Hf. rewrite tbind_2. unfold p_value_or_guard. rewrite tbind_2. cbn [rbind tpt snd]. rewrite tbind_2, er_locked by done.
    rewrite er_get. cbn [xexec exec]. unfold u_get. destruct (sh_get (ps_shard x) (hash P k) k) as [[s1 o]|e]; cbn [rbind]; [|by destruct e].
    destruct o as [v|]; cbn [rbind plain].
    { rewrite tbind_2. cbn [rbind tpt tret snd]. by apply (Hf (ps_set x s1)). }
    rewrite tbind_2, er_locked by done. rewrite er_upsert. change (ps_shard (ps_set x s1)) with s1.
    destruct (upsert_placeholder s1 (hash P k) k) as [[s2 [[t v]|[p [|]]]]|e]; cbn [rbind]; [..|by destruct e].
    - rewrite tbind_2. cbn [rbind tpt tret snd]. by apply (Hf (ps_set (ps_set x s1) s2)).
    - by apply (Hf (ps_set (ps_set x s1) s2)).
    - done. }
  destruct m as [k mc|mc|rs k g|rs k w]; cbn [ps_exec shard_exec].
  - destruct Hm as [Hs _]. rewrite er_plain by done. destruct (exec (ps_shard x) mc) as [[s o]|e]; simpl; [by eexists|by destruct e].
  - rewrite er_plain; [|done|by destruct Hm as [->|[->|[f ->]]]]. destruct (exec (ps_shard x) mc) as [[s o]|e]; simpl; [by eexists|by destruct e].
  - apply (Hvog k _ (λ s r, match r with inl v => Ok (s, plain (RVal (Some v))) | inr p =>
      match g with
      | SInsert v wl => let! (s, r) := xexec s (XFill rs p false v wl) in match r with XO o => Ok (s, o) | _ => Fail Panic end
      | SDrop => let! (s, _) := xexec s (XDrop p) in Ok (s, plain RGuard)
      end end)).
    clear Hvog x H. intros x [v|p] H; [by eexists|]. destruct g as [v wl|]; cbn [p_guard].
    + rewrite er_guard_insert by done. destruct (xexec (ps_shard x) (XFill rs p false v wl)) as [[s r]|e]; cbn [rbind]; [|by destruct e].
      destruct r; simpl; try done. by eexists.
    + rewrite tbind_2. cbn [tlift snd]. rewrite er_drop by done. destruct (xexec (ps_shard x) (XDrop p)) as [[s r]|e]; cbn [rbind]; [|by destruct e].
      simpl. by eexists.
  - eapply (Hvog k _ (λ s r, match r with inl v => Ok (s, plain (RVal (Some v))) | inr p =>
      match w with
      | Some v => let! (s, r) := xexec s (XFill rs p false v false) in match r with XO o => Ok (s, Out (RVal (Some v)) (o_log o) true None) | _ => Fail Panic end
      | None => let! (s, _) := xexec s (XDrop p) in Ok (s, Out RErr [] true None)
      end end)).
    clear Hvog x H. intros x [v|p] H; [by eexists|]. rewrite tbind_2. cbn [unwind snd rbind]. destruct w as [v|]; cbn [p_guard].
    + rewrite tbind_2. cbn [unwind snd rbind]. rewrite tbind_2. rewrite er_guard_insert by done.
      destruct (xexec (ps_shard x) (XFill rs p false v false)) as [[s r]|e]; cbn [rbind]; [|by destruct e].
      destruct r; simpl; try done. by eexists.
    + rewrite !tbind_2. cbn [tlift snd]. rewrite er_drop by done. destruct (xexec (ps_shard x) (XDrop p)) as [[s r]|e]; cbn [rbind]; [|by destruct e].
      simpl. by eexists.
Qed.

Definition under c : scache P := SCache (ps_shard <$> pc_shards c) (pc_mask c).
Definition clean c : Prop := ∀ j x, pc_shards c !! j = Some x → ps_poisoned x = false.
Lemma clean_with c j x : clean c → ps_poisoned x = false → clean (pc_with c j x).
Proof.
  intros Hc Hx i y. unfold pc_with. simpl. destruct (decide (i = j)) as [->|Hne].
  - intros Hl. destruct (decide (j < length (pc_shards c))) as [Hlt|Hge].
    + rewrite list_lookup_insert in Hl by done. by injection Hl as <-.
    + rewrite list_insert_ge in Hl by lia. by eapply Hc.
  - rewrite list_lookup_insert_ne by done. apply Hc.
Qed.
Lemma under_with c j x : under (pc_with c j x) = with_shard (under c) j (ps_shard x).
Proof. unfold under, pc_with, with_shard. simpl. by rewrite list_fmap_insert. Qed.
Lemma key_of_call_eq m : key_of_call m = s_key m.
Proof. by destruct m. Qed.
Lemma under_lookup c j x : pc_shards c !! j = Some x → sc_shards (under c) !! j = Some (ps_shard x).
Proof. intros H. simpl. by rewrite list_lookup_fmap, H. Qed.
Lemma er_at_shard c j x m s o : clean c → api m → pc_shards c !! j = Some x → shard_exec (ps_shard x) m = Ok (s, o) →
  ∃ c', (at_shard std c j m).2 = Ok (c', o) ∧ under c' = with_shard (under c) j s ∧ clean c'.
Proof.
  intros Hc Hm Hx Hs. unfold at_shard. rewrite Hx. pose proof (er_exec_shard x m (Hc _ _ Hx) Hm) as H. rewrite Hs in H. simpl in H.
  destruct H as (x' & E & <- & Hp). cbn [snd]. rewrite E. cbn [rbind]. eexists. split; [done|]. split; [apply under_with|by apply clean_with].
Qed.
Lemma er_at_shards c js (mc : cmd P) : clean c → api (SAll mc) → (∀ j, j ∈ js → j < length (pc_shards c)) →
  match on_shards (under c) js (XCmd mc) with
  | Ok d => ∃ c', (at_shards std c js (SAll mc)).2 = Ok c' ∧ under c' = d ∧ clean c'
  | Fail NoFuel => True
  | Fail f => (at_shards std c js (SAll mc)).2 = Fail f
  end.
Proof.
  revert c. induction js as [|j js IH]; intros c Hc Hm Hl; cbn [on_shards at_shards]; [by eexists|].
  destruct (lookup_lt_is_Some_2 (pc_shards c) j) as [x Hx]; [apply Hl; left|].
  rewrite (on_shard_eq _ j (ps_shard x)) by (by apply under_lookup). cbn [xexec].
  destruct (exec (ps_shard x) mc) as [[s o]|f] eqn:E; cbn [rbind].
  - destruct (er_at_shard c j x (SAll mc) s o Hc Hm Hx E) as (c1 & E1 & <- & Hc1). rewrite tbind_2, E1. cbn [rbind].
    apply IH; [done|done|]. intros i Hi. assert (length (pc_shards c1) = length (pc_shards c)) as ->; [|apply Hl; by right].
    unfold at_shard in E1. rewrite Hx in E1. cbn [snd] in E1. destruct (ps_exec std x (SAll mc)).2 as [[x1 o1]|]; cbn [rbind] in E1; [|done].
    injection E1 as <- _. simpl. apply insert_length.
  - assert (f ≠ NoFuel → (at_shard std c j (SAll mc)).2 = Fail f) as Hf.
    { intros Hn. unfold at_shard. rewrite Hx. pose proof (er_exec_shard x (SAll mc) (Hc _ _ Hx) Hm) as H. cbn [shard_exec] in H. rewrite E in H.
      cbn [snd]. destruct f; try done; cbn [with_fill] in H; by rewrite H. }
    destruct f; try done; by rewrite tbind_2, Hf.
Qed.
Lemma er_cache c m : SI bb gg cc ee (under c) → clean c → api m →
  match sc_exec (under c) m with
  | Ok (d, o) => ∃ c', (p_exec std c m).2 = Ok (c', o) ∧ under c' = d ∧ clean c'
  | Fail NoFuel => True
  | Fail f => (p_exec std c m).2 = Fail f
  end.
Proof.
  intros HS Hc Hm. unfold p_exec. rewrite key_of_call_eq. destruct (s_key m) as [k|] eqn:Hk.
  - pose proof (idx_lt _ _ _ _ (under c) k HS) as Hlt. simpl in Hlt. rewrite fmap_length in Hlt.
    destruct (lookup_lt_is_Some_2 _ _ Hlt) as [x Hx].
    rewrite (sc_exec_eq (under c) k (shard_idx (pc_mask c) k) (ps_shard x) m) by (done || (by eapply shard_for_ok) || by apply under_lookup).
    destruct (shard_exec (ps_shard x) m) as [[s o]|f] eqn:E; cbn [rbind]; [by eapply er_at_shard|].
    unfold at_shard. rewrite Hx. cbn [snd]. pose proof (er_exec_shard x m (Hc _ _ Hx) Hm) as H. rewrite E in H. destruct f; try done; cbn [with_fill] in H; by rewrite H.
  - destruct m as [?|mc|?|?]; try done. cbn [sc_exec]. unfold on_all. rewrite tbind_2. simpl sc_shards. rewrite fmap_length.
    pose proof (er_at_shards c (seq 0 (length (pc_shards c))) mc Hc Hm) as H. destruct (on_shards _ _ _) as [d|f]; cbn [rbind].
    + destruct H as (c' & -> & <- & Hc'); [intros j Hj; apply elem_of_seq in Hj; lia|]. cbn [rbind tret snd]. by eexists.
    + assert (f ≠ NoFuel → (at_shards std c (seq 0 (length (pc_shards c))) (SAll mc)).2 = Fail f) as Hf.
      { intros Hn. destruct f; try done; apply H; intros j Hj; apply elem_of_seq in Hj; lia. }
      destruct f; try done; by rewrite Hf.
Qed.

(* ---- the invariant ---- *)
Record LI h c : Prop := {
  li_len : length (pc_shards c) = N.to_nat (2 ^ ee);
  li_mask : pc_mask c = (2 ^ ee - 1)%N;
  li_std : std = false → clean c;
  li_live : ∀ j x, pc_shards c !! j = Some x → ps_poisoned x = false → lives h j x ∧ cfg (ps_shard x) = (bb, cc, gg);
  li_loc : ∀ j x k v, pc_shards c !! j = Some x → ps_poisoned x = false → (k, v) ∈ sh_iter (ps_shard x) → shard_idx (pc_mask c) k = j;
}.
(* what a call does to one shard: it panics there, it returns *)
Definition hit h (j : nat) m q x x' : Prop :=
  (ps_poisoned x = true → x' = x) ∧ (ps_poisoned x = false → SyncCrashCalls.Qp std (abj h j) x m q x') ∧
  (std = true → must_poison m q = true → ps_poisoned x' = true).
Definition ret h (j : nat) m o x x' : Prop := ps_poisoned x = false ∧ Rx (abj h j) x m (x', o).
Lemma shard_hit h c j x m q x' : LI h c → api m → pc_shards c !! j = Some x → (q, x') ∈ (ps_exec std x m).1 → ok_at std q → hit h j m q x x'.
Proof.
  intros HL Hm Hx Hin Hok. split_and!; [intros Hp..|intros Hs; by eapply must_spec].
  - by eapply poisoned_spec.
  - destruct (li_live _ _ HL _ _ Hx Hp) as [Hl _]. destruct (ps_spec LW PI std (abj h j) (behind_cong h j) x m Hl Hm) as [H _]. by apply H.
Qed.
Lemma shard_ret h c j x m : LI h c → api m → pc_shards c !! j = Some x → 
  wp (λ f, if ps_poisoned x then f = Panic else sfails (ps_shard x) m f) (ps_exec std x m).2 (λ '(x', o), ret h j m o x x').
Proof.
  intros HL Hm Hx. destruct (ps_poisoned x) eqn:Hp.
  - destruct (poisoned_spec x m Hp) as (_ & _ & ->). done.
  - destruct (li_live _ _ HL _ _ Hx Hp) as [Hl _]. destruct (ps_spec LW PI std (abj h j) (behind_cong h j) x m Hl Hm) as [_ H].
    destruct (ps_exec std x m).2 as [[x' o]|f]; done.
Qed.
Lemma all_runs h c j x (mc : cmd P) : LI h c → api (SAll mc) → pc_shards c !! j = Some x → ps_poisoned x = false →
  ∃ x', (ps_exec std x (SAll mc)).2 = Ok (x', plain RUnit).
Proof.
  intros HL Hm Hx Hp. destruct (li_live _ _ HL _ _ Hx Hp) as [(_ & HI & _) _]. cbn [ps_exec].
  rewrite er_plain; [|done|by destruct Hm as [->|[->|[f ->]]]].
  assert (∃ s', exec (ps_shard x) mc = Ok (s', plain RUnit)) as [s' ->]; [|by eexists].
  destruct Hm as [->|[->|[f ->]]]; cbn [exec].
  - unfold sh_clear. destruct (sh_drain_spec (ps_shard x) HI) as (s' & -> & _). simpl. eauto.
  - destruct (sh_reserve_spec (ps_shard x) HI) as (s' & -> & _). simpl. eauto.
  - destruct (sh_retain_spec LW (ps_shard x) f HI) as (s' & -> & _). simpl. eauto.
Qed.
(* one shard after another *)
Definition went h m (a n : nat) c c' : Prop := pc_mask c' = pc_mask c ∧ length (pc_shards c') = length (pc_shards c) ∧
  ∀ j x, pc_shards c !! j = Some x → ∃ x', pc_shards c' !! j = Some x' ∧
    if decide (a ≤ j < n) then ret h j m (plain RUnit) x x' else x' = x.
Definition stopped h m q (a j0 : nat) c c' : Prop := pc_mask c' = pc_mask c ∧ length (pc_shards c') = length (pc_shards c) ∧
  ∀ j x, pc_shards c !! j = Some x → ∃ x', pc_shards c' !! j = Some x' ∧
    if decide (j = j0) then hit h j m q x x' else if decide (a ≤ j < j0) then ret h j m (plain RUnit) x x' else x' = x.
Lemma at_shards_spec h c0 (mc : cmd P) : LI h c0 → api (SAll mc) → ∀ n a c, a + n = length (pc_shards c0) → went h (SAll mc) 0 a c0 c →
  (∀ q c', (q, c') ∈ (at_shards std c (seq a n) (SAll mc)).1 → ok_at std q → ∃ j0, j0 < length (pc_shards c0) ∧ stopped h (SAll mc) q 0 j0 c0 c') ∧
  match (at_shards std c (seq a n) (SAll mc)).2 with
  | Ok c' => went h (SAll mc) 0 (length (pc_shards c0)) c0 c'
  | Fail f => f = Panic ∧ ∃ j x, pc_shards c0 !! j = Some x ∧ ps_poisoned x = true
  end.
Proof.
  intros HL Hm n. induction n as [|n IH]; intros a c Ha (W1 & W2 & W3); cbn [seq at_shards].
  { split; [intros q c' Hin; by apply elem_of_nil in Hin|]. replace (length (pc_shards c0)) with a by lia. done. }
  destruct (lookup_lt_is_Some_2 (pc_shards c0) a) as [x Hx]; [lia|]. destruct (W3 a x Hx) as (x1 & Hx1 & Hk). rewrite decide_False in Hk by lia. subst x1.
  unfold at_shard. rewrite Hx1.
  assert (∀ q c', (q, c') ∈ (λ '(q, x), (q, pc_with c a x)) <$> (ps_exec std x (SAll mc)).1 → ok_at std q → stopped h (SAll mc) q 0 a c0 c') as Hstop.
  { intros q c' [[q' x'] [E Hin]]%elem_of_list_fmap Hok. injection E as -> ->. split; [done|]. split; [simpl; by rewrite insert_length|].
    intros j y Hy. destruct (W3 j y Hy) as (y' & Hy' & Hk). simpl. destruct (decide (j = a)) as [->|Hne].
    - rewrite Hx in Hy. injection Hy as <-. exists x'. rewrite list_lookup_insert by lia. split; [done|]. by eapply shard_hit.
    - exists y'. by rewrite list_lookup_insert_ne by done. }
  destruct (ps_poisoned x) eqn:Hp.
  { destruct (poisoned_spec x (SAll mc) Hp) as (_ & _ & E). unfold tbind. cbn [snd fst]. rewrite E. cbn [rbind snd fst]. split.
    - intros q c' Hin Hok. exists a. split; [lia|]. by apply Hstop.
    - split; [done|]. by exists a, x. }
  destruct (all_runs h c0 a x mc HL Hm Hx Hp) as (x' & E). pose proof (shard_ret h c0 a x (SAll mc) HL Hm Hx) as Hr. rewrite E in Hr. cbn [wp] in Hr.
  unfold tbind. cbn [snd fst]. rewrite E. cbn [rbind snd fst].
  destruct (IH (S a) (pc_with c a x')) as [H1 H2]; [lia| |].
  { split; [done|]. split; [simpl; by rewrite insert_length|]. intros j y Hy. destruct (W3 j y Hy) as (y' & Hy' & Hk). simpl.
    destruct (decide (j = a)) as [->|Hne].
    - rewrite Hx in Hy. injection Hy as <-. exists x'. rewrite list_lookup_insert by lia. split; [done|]. rewrite decide_True by lia. done.
    - exists y'. rewrite list_lookup_insert_ne by done. split; [done|]. destruct (decide (0 ≤ j < a)).
      + by rewrite decide_True by lia.
      + by rewrite decide_False by lia. }
  split; [|done]. intros q c' [Hin|Hin]%elem_of_app Hok; [|by eapply H1]. exists a. split; [lia|]. by apply Hstop.
Qed.

(* every call *)
Definition stepped h m o c c' : Prop := pc_mask c' = pc_mask c ∧ length (pc_shards c') = length (pc_shards c) ∧
  ∀ j x, pc_shards c !! j = Some x → ∃ x', pc_shards c' !! j = Some x' ∧
    if decide (concerns (pc_mask c) m j) then ret h j m o x x' else x' = x.
Definition broke h m q c c' : Prop := pc_mask c' = pc_mask c ∧ length (pc_shards c') = length (pc_shards c) ∧
  ∃ j0, j0 < length (pc_shards c) ∧ concerns (pc_mask c) m j0 ∧
  ∀ j x, pc_shards c !! j = Some x → ∃ x', pc_shards c' !! j = Some x' ∧
    if decide (j = j0) then hit h j m q x x' else
    if decide (concerns (pc_mask c) m j ∧ j < j0) then ret h j m (plain RUnit) x x' else x' = x.
Lemma p_exec_spec h c m : LI h c → api m →
  (∀ q c', p_panicked std c m q c' → ok_at std q → broke h m q c c') ∧
  match (p_exec std c m).2 with
  | Ok (c', o) => stepped h m o c c'
  | Fail f => ∃ j x, pc_shards c !! j = Some x ∧ concerns (pc_mask c) m j ∧ if ps_poisoned x then f = Panic else sfails (ps_shard x) m f
  end.
Proof.
  intros HL Hm. unfold p_panicked, p_exec. rewrite key_of_call_eq. destruct (s_key m) as [k|] eqn:Hk.
  - assert (shard_idx (pc_mask c) k < length (pc_shards c)) as Hlt.
    { rewrite (li_len _ _ HL), (li_mask _ _ HL). apply shard_idx_lt. }
    set (j0 := shard_idx (pc_mask c) k) in *. assert (∀ j, concerns (pc_mask c) m j ↔ j = j0) as Hcon by (intros j; unfold concerns; by rewrite Hk).
    destruct (lookup_lt_is_Some_2 _ _ Hlt) as [x Hx]. unfold at_shard. rewrite Hx. cbn [fst snd]. split.
    + intros q c' [[q' x'] [E Hin]]%elem_of_list_fmap Hok. injection E as -> ->. split; [done|]. split; [simpl; by rewrite insert_length|].
      exists j0. split; [done|]. split; [by apply Hcon|]. intros j y Hy. simpl. destruct (decide (j = j0)) as [->|Hne].
      * rewrite Hx in Hy. injection Hy as <-. exists x'. rewrite list_lookup_insert by lia. split; [done|]. by eapply shard_hit.
      * exists y. rewrite list_lookup_insert_ne by done. split; [done|]. rewrite decide_False by (rewrite Hcon; lia). done.
    + pose proof (shard_ret h c j0 x m HL Hm Hx) as Hr. destruct (ps_exec std x m).2 as [[x' o]|f]; cbn [rbind wp] in *.
      * split; [done|]. split; [simpl; by rewrite insert_length|]. intros j y Hy. simpl. destruct (decide (j = j0)) as [->|Hne].
        -- rewrite Hx in Hy. injection Hy as <-. exists x'. rewrite list_lookup_insert by lia. split; [done|]. rewrite decide_True by (by apply Hcon). done.
        -- exists y. rewrite list_lookup_insert_ne by done. split; [done|]. rewrite decide_False by (rewrite Hcon; lia). done.
      * exists j0, x. split; [done|]. split; [by apply Hcon|done].
  - destruct m as [?|mc|?|?]; try done.
    destruct (at_shards_spec h c mc HL Hm (length (pc_shards c)) 0 c) as [H1 H2]; [lia| |].
    { split_and!; [done|done|]. intros j x Hx. exists x. split; [done|]. by rewrite decide_False by lia. }
    unfold tbind. split.
    + intros q c' Hin Hok. destruct (H1 q c') as (j0 & Hlt & S1 & S2 & S3); [|done|].
      { destruct (at_shards _ _ _ _) as [l [?|?]]; cbn [fst snd tret] in *; [by rewrite app_nil_r in Hin|done]. }
      split; [done|]. split; [done|]. exists j0. split; [done|]. split; [done|]. intros j x Hx. destruct (S3 j x Hx) as (x' & Hx' & Hk').
      exists x'. split; [done|]. destruct (decide (j = j0)); [done|]. destruct (decide (0 ≤ j < j0)).
      * rewrite decide_True by (split; [done|lia]). done.
      * rewrite decide_False by (intros [_ ?]; lia). done.
    + destruct (at_shards _ _ _ _) as [l [c'|f]]; cbn [fst snd tret] in *.
      * destruct H2 as (A & B & C). split; [done|]. split; [done|]. intros j x Hx. destruct (C j x Hx) as (x' & Hx' & Hk'). exists x'. split; [done|].
        rewrite decide_True in Hk' by (split; [lia|by eapply lookup_lt_Some]). by rewrite decide_True by done.
      * destruct H2 as [-> (j & x & Hx & Hp)]. exists j, x. split; [done|]. split; [done|]. by rewrite Hp.
Qed.

(* ---- the invariant is kept ---- *)
Lemma cfg_parts s : cfg s = (bb, cc, gg) → sh_capacity s = cc ∧ sh_target_hot s = bb.
Proof. unfold cfg. by intros [= ? ? ?]. Qed.
Lemma does_loc h j m o x x' k : api m → ret h j m o x x' → ∀ v, (k, v) ∈ sh_iter (ps_shard x') →
  (∃ k', s_key m = Some k' ∧ keqb P k k' = true) ∨ ∃ k' v', (k', v') ∈ sh_iter (ps_shard x) ∧ keqb P k k' = true.
Proof.
  intros Hm (_ & _ & _ & _ & Hd) v Hin. destruct Hd as [Hd|(k1 & v1 & _ & _ & _ & _ & Hd)]; [|right; exists k, v; split; [by rewrite <-Hd|apply (keqb_refl _ LW)]].
  destruct (s_does_does LW _ _ _ _ _ _ Hd) as (o' & Hd' & _). destruct (creates (as_cmd m) k) eqn:Hcr; [left; by apply (creates_key m k)|].
  right. destruct (find_key k (sh_iter (ps_shard x))) as [[ko vo]|] eqn:Hf.
  - apply find_key_Some in Hf as [Hin' Hk']. eauto.
  - pose proof (does_absent LW _ _ _ _ _ _ _ Hd' Hcr Hf) as Hf'. pose proof (SeqProofs2.find_none _ _ _ _ Hf' Hin) as Hx.
    by rewrite (keqb_refl _ LW) in Hx.
Qed.
Lemma written_key m k v : api m → written (as_cmd m) = Some (k, v) → s_key m = Some k.
Proof.
  destruct m as [k' m|m|rs k' [v' wl|]|rs k' [v'|]]; simpl; try done; try by intros _ [= <- <-].
  - intros [Hs Hk]. destruct m; try done; simpl in *; intros [= <- <-]; by injection Hk as ->.
  - by intros [->|[->|[f ->]]].
Qed.
Lemma panic_loc m q (d d' : contents P) k v : api m → panic_left m q d d' → (k, v) ∈ d' →
  (∃ k', s_key m = Some k' ∧ keqb P k k' = true) ∨ ∃ v', (k, v') ∈ d.
Proof.
  intros Hm H Hin. unfold panic_left in H. destruct (calm_at q); [right; exists v; by rewrite <-H|].
  destruct (written (as_cmd m)) as [[k1 v1]|] eqn:Hw; [|right; exists v; by rewrite <-H].
  destruct (keqb P k1 k) eqn:Hk.
  - left. exists k1. split; [by eapply written_key|]. by apply (keqb_sym _ LW).
  - right. destruct (partway_other _ _ _ _ _ _ H Hk Hin) as (v0 & ? & _). eauto.
Qed.
Lemma live_more h j m q x : lives h j x → lives (h ++ [Panicked m q]) j x.
Proof.
  intros (Hp & HI & Hl). split_and!; [done|done|]. eapply left_sub; [| |exact Hl]; [|done]. intros k v [H Hj]. split; [|done]. by apply behind_panic.
Qed.
Lemma live_more_ret h j m o x : lives h j x → (∀ id k, pend_of (ps_shard x) id = Some k → shard_idx (2 ^ ee - 1) k = j → ¬ cancels bb m k) → lives (h ++ [Returned m o]) j x.
Proof.
  intros (Hp & HI & Hl) Hn. split_and!; [done|done|]. intros id k Hk. destruct (Hl id k Hk) as (v & Ha & [Hb Hj]). exists v. split; [done|].
  split; [|done]. apply behind_ret; [done|]. by eapply Hn.
Qed.
Lemma unconcerned m (j : nat) k : ¬ concerns (2 ^ ee - 1) m j → api m → shard_idx (2 ^ ee - 1) k = j → ¬ cancels bb m k.
Proof.
  intros Hc Hm Hj Hk. apply Hc. unfold concerns. destruct m as [k0 mc|mc| |]; try done. destruct Hm as [_ Hk0].
  destruct mc; try done; simpl in *; injection Hk0 as ->; rewrite <-Hj; apply (idx_keqb LW); [done|apply Hk].
Qed.
Lemma LI_new : LI [] (pc_fresh bb gg cc ee).
Proof.
  split; simpl.
  - by rewrite replicate_length.
  - done.
  - intros _ j x [-> _]%lookup_replicate. done.
  - intros j x [-> _]%lookup_replicate _. split; [|done]. split_and!; [done|apply sh_new_inv|].
    intros id k (t & q & Hq & _)%pend_Some; [|apply sh_new_inv]. unfold ph_at, its_of in Hq. simpl in Hq. by destruct t.
  - intros j x k v [-> _]%lookup_replicate _ Hin. by apply elem_of_nil in Hin.
Qed.
Lemma lookup_back c c' (j : nat) x' : length (pc_shards c') = length (pc_shards c) → pc_shards c' !! j = Some x' → ∃ x, pc_shards c !! j = Some x.
Proof. intros E H. apply lookup_lt_is_Some_2. rewrite <-E. by eapply lookup_lt_Some. Qed.
Lemma stepped_LI h m o c c' : LI h c → api m → stepped h m o c c' → LI (h ++ [Returned m o]) c'.
Proof.
  intros HL Hm (A & B & C).
  assert (∀ j x', pc_shards c' !! j = Some x' → ∃ x, pc_shards c !! j = Some x ∧ if decide (concerns (pc_mask c) m j) then ret h j m o x x' else x' = x) as D.
  { intros j x' Hx'. destruct (lookup_back c c' j x' B Hx') as [x Hx]. exists x. split; [done|]. destruct (C j x Hx) as (x2 & Hx2 & Hk). rewrite Hx' in Hx2. by injection Hx2 as <-. }
  split; [by rewrite B, (li_len _ _ HL)|by rewrite A, (li_mask _ _ HL)|..].
  - intros Hs j x' Hx'. destruct (D j x' Hx') as (x & Hx & Hk). case_decide; [apply Hk|]. subst. by eapply li_std.
  - intros j x' Hx' Hp'. destruct (D j x' Hx') as (x & Hx & Hk). case_decide.
    + destruct Hk as (Hp & Hl & Hst & Hc & _). destruct (li_live _ _ HL _ _ Hx Hp) as [_ Hc0]. split; [|congruence]. apply live_more_ret; [done|].
      intros id k Hk _. destruct (cfg_parts _ Hc0) as [_ <-]. by eapply Hst.
    + subst. destruct (li_live _ _ HL _ _ Hx Hp'). split; [|done]. apply live_more_ret; [done|]. intros id k _ Hj. rewrite (li_mask _ _ HL) in *. by eapply unconcerned.
  - intros j x' k v Hx' Hp' Hin. rewrite A. destruct (D j x' Hx') as (x & Hx & Hk). case_decide as Hc.
    + destruct (does_loc _ _ _ _ _ _ k Hm Hk v Hin) as [(k' & Hk' & Hkk)|(k' & v' & Hin' & Hkk)].
      * unfold concerns in Hc. rewrite Hk' in Hc. rewrite Hc. by apply (idx_keqb LW).
      * rewrite (idx_keqb LW _ k k') by done. destruct Hk as [Hp _]. by eapply li_loc.
    + subst. by eapply li_loc.
Qed.
Lemma broke_LI h m q c c' : LI h c → api m → broke h m q c c' → LI (h ++ [Panicked m q]) c'.
Proof.
  intros HL Hm (A & B & j0 & Hlt & Hc0 & C).
  assert (∀ j x', pc_shards c' !! j = Some x' → ∃ x, pc_shards c !! j = Some x ∧
    if decide (j = j0) then hit h j m q x x' else if decide (concerns (pc_mask c) m j ∧ j < j0) then ret h j m (plain RUnit) x x' else x' = x) as D.
  { intros j x' Hx'. destruct (lookup_back c c' j x' B Hx') as [x Hx]. exists x. split; [done|]. destruct (C j x Hx) as (x2 & Hx2 & Hk). rewrite Hx' in Hx2. by injection Hx2 as <-. }
  clear C. split; [by rewrite B, (li_len _ _ HL)|by rewrite A, (li_mask _ _ HL)|..].
  - intros Hs j x' Hx'. destruct (D j x' Hx') as (x & Hx & Hk). pose proof (li_std _ _ HL Hs _ _ Hx) as Hp. case_decide; [|case_decide].
    + destruct (ps_poisoned x') eqn:Hp'; [|done]. destruct Hk as (_ & Hk & _). destruct (Hk Hp) as [_ H2]. destruct (H2 Hp'). congruence.
    + apply Hk.
    + by subst.
  - intros j x' Hx' Hp'. destruct (D j x' Hx') as (x & Hx & Hk). case_decide; [|case_decide].
    + destruct (ps_poisoned x) eqn:Hp; [destruct Hk as [Hk _]; rewrite (Hk Hp) in Hp'; congruence|]. destruct (li_live _ _ HL _ _ Hx Hp) as [_ Hcf].
      destruct Hk as (_ & Hk & _). destruct (Hk Hp) as [H1 _]. destruct (H1 Hp') as (HI & Hcg & Hl & _). split; [|congruence]. split_and!; [done|done|].
      eapply left_sub; [| |exact Hl]; [|done]. intros k v [[Hab Hj]|(-> & k' & Ho & Hk')]; [split; [by apply behind_panic|done]|].
      split.
      * exists h, m, k', []. split_and!; [done|done|done|]. by intros ?? ?%elem_of_nil.
      * unfold concerns in Hc0. destruct m as [| |rs k0 [v0 wl|]|rs k0 [v0|]]; try done; simpl in *; injection Ho as -> ->;
          rewrite (li_mask _ _ HL) in Hc0; match goal with H : j = j0 |- _ => rewrite H, Hc0 end; by apply (idx_keqb LW).
    + destruct Hk as (Hp & Hl & _ & Hc & _). destruct (li_live _ _ HL _ _ Hx Hp) as [_ Hcf]. split; [by apply live_more|congruence].
    + subst. destruct (li_live _ _ HL _ _ Hx Hp'). split; [by apply live_more|done].
  - intros j x' k v Hx' Hp' Hin. rewrite A. destruct (D j x' Hx') as (x & Hx & Hk).
    assert (∀ k', concerns (pc_mask c) m j → s_key m = Some k' → keqb P k k' = true → shard_idx (pc_mask c) k = j) as Hkey.
    { intros k' Hc Hk' Hkk. unfold concerns in Hc. rewrite Hk' in Hc. rewrite Hc. by apply (idx_keqb LW). }
    case_decide as Hj; [subst j|case_decide as Hc].
    + destruct (ps_poisoned x) eqn:Hp; [destruct Hk as [Hk _]; rewrite (Hk Hp) in Hp'; congruence|].
      destruct Hk as (_ & Hk & _). destruct (Hk Hp) as [H1 _]. destruct (H1 Hp') as (_ & _ & _ & Hpl).
      destruct (panic_loc _ _ _ _ k v Hm Hpl Hin) as [(k' & Hk' & Hkk)|(v' & Hin')]; [by eapply Hkey|by eapply li_loc].
    + destruct (does_loc _ _ _ _ _ _ k Hm Hk v Hin) as [(k' & Hk' & Hkk)|(k' & v' & Hin' & Hkk)]; [eapply Hkey; [apply Hc|done|done]|].
      rewrite (idx_keqb LW _ k k') by done. destruct Hk as [Hp _]. by eapply li_loc.
    + subst. by eapply li_loc.
Qed.
Lemma lived_LI h c : lived std bb gg cc ee h c → LI h c.
Proof.
  induction 1 as [|h c m c' o _ HL Hm E|h c m q c' _ HL Hm Hp Hok].
  - apply LI_new.
  - destruct (p_exec_spec h c m HL Hm) as [_ H]. rewrite E in H. by apply stepped_LI with c.
  - destruct (p_exec_spec h c m HL Hm) as [H _]. apply broke_LI with c; [done|done|]. by apply H.
Qed.
Lemma ret_does h j m o x x' : cfg (ps_shard x) = (bb, cc, gg) → ret h j m o x x' →
  call_does cc bb h m o x x'.
Proof.
  intros Hc (Hp & Hl & _ & _ & Hd). destruct (cfg_parts _ Hc) as [E1 E2]. cbv zeta in Hd. rewrite E1, E2 in Hd. split; [done|]. split; [apply Hl|]. destruct Hd as [Hd|(k & v & Hk & Hv & [Hb _] & H)]; [by left|right].
  exists k, v. destruct m as [k' mc|mc|rs k' g'|rs k' w]; simpl in Hk; try done; subst k'; (split; [done|]; split; [intros mc; done|]; by split).
Qed.

Lemma hit_does h j m q x x' : hit h j m q x x' → panic_does std m q x x'.
Proof.
  intros (H1 & H2 & H3). unfold panic_does. destruct (ps_poisoned x); [by apply H1|]. destruct (H2 eq_refl) as [H4 H5].
  destruct (ps_poisoned x'); [by apply H5|]. split; [|by apply H4]. intros Hs. destruct (must_poison m q); [|done]. by specialize (H3 Hs eq_refl).
Qed.
End cache.
