(* Panics in the sync cache: every call, on one shard. *)
From Verif Require Export SyncCrashProofs.

Section calls.
Context {P : Params} (LW : Lawful P) (PI : ptr_ids P = true).
Context (std : bool) (ab : K P → V P → Prop) (Hab : ∀ k k' v, keqb P k k' = true → ab k' v → ab k v).
Notation K := (K P). Notation V := (V P). Notation RS := (RS P). Notation out := (out P).
Notation shard := (shard P). Notation pshard := (pshard P).
Implicit Types (s : shard) (k : K) (v : V) (rs : RS) (p : plh) (x : pshard) (m : scmd P) (q : spoint).

Definition ok_at q : Prop := std = true ∨ harmless_at q = true.
Definition tw {A} (Q : spoint → pshard → Prop) (E : fail → Prop) (R : A → Prop) (t : T pshard A) : Prop :=
  (∀ q x, (q, x) ∈ t.1 → ok_at q → Q q x) ∧ wp E t.2 R.
Lemma tw_bind {A C} Q E (R1 : A → Prop) (R : C → Prop) t f :
  tw Q E R1 t → (∀ a, R1 a → tw Q E R (f a)) → tw Q E R (tbind t f).
Proof.
  intros [H1 H2] H3. unfold tbind. destruct t as [l [a|e]]; simpl in *; [|done]. destruct (H3 a H2) as [H4 H5].
  split; [|done]. simpl. intros q x [Hin|Hin]%elem_of_app; [by apply H1|by apply H4].
Qed.
Lemma tw_ret {A} Q E (R : A → Prop) a : R a → tw Q E R (tret a).
Proof. intros H. split; [|done]. intros q x Hin. by apply elem_of_nil in Hin. Qed.
Lemma tw_pt (Q : spoint → pshard → Prop) E (R : () → Prop) q x : (ok_at q → Q q x) → R () → tw Q E R (tpt q x).
Proof. intros H HR. split; [|done]. intros q' x' Hin. apply elem_of_list_singleton in Hin. by injection Hin as -> ->. Qed.
Lemma tw_when Q E (R : () → Prop) b t : (b = true → tw Q E R t) → R () → tw Q E R (twhen b t).
Proof. intros H HR. destruct b; simpl; [by apply H|by apply tw_ret]. Qed.

Lemma tw_mono {A} Q E (R1 R2 : A → Prop) t : (∀ a, R1 a → R2 a) → tw Q E R1 t → tw Q E R2 t.
Proof. intros H [H1 H2]. split; [done|]. destruct t as [l [a|e]]; simpl in *; [by apply H|done]. Qed.

(* every pending load is one whose guard has stored a value *)
Definition left (g : K → V → Prop) s (l : list (N * V)) : Prop :=
  ∀ id k, pend_of s id = Some k → ∃ v, assoc id l = Some v ∧ g k v.
Definition live x : Prop := ps_poisoned x = false ∧ Inv (ps_shard x) ∧ left ab (ps_shard x) (ps_filled x).
Lemma left_sub (g g' : K → V → Prop) s s' l : (∀ k v, g k v → g' k v) → (∀ id k, pend_of s' id = Some k → pend_of s id = Some k) → left g s l → left g' s' l.
Proof. intros Hg Hs H id k Hk. destruct (H id k (Hs _ _ Hk)) as (v & ? & ?). eauto. Qed.
Lemma nonew_sub s s' : Inv s → Inv s' → nonew s s' → ∀ id k, pend_of s' id = Some k → pend_of s id = Some k.
Proof. intros HI HI' Hn id k (t & q & Hq & ?)%pend_Some; [|done]. apply pend_Some; [done|]. exists t, q. split; [by eapply nonew_true|done]. Qed.
Lemma after_sub b (mc : cmd P) pd id k : pend_after b mc pd id = Some k → pd id = Some k.
Proof.
  unfold pend_after, pdel. destruct mc; try done.
  - destruct (pd id) as [k'|]; [|done]. by destruct (keqb P _ k').
  - destruct (_.2); [done|]. destruct (pd id) as [k'|]; [|done]. by destruct (keqb P _ k').
Qed.

(* what holds after a panic at q in m, on x0 *)
Definition ab_at m q k v : Prop := ab k v ∨ q = SP PBegin ∧ ∃ k', offers m = Some (k', v) ∧ keqb P k k' = true.
Definition fine (x0 : pshard) m q s (l : list (N * V)) : Prop :=
  Inv s ∧ cfg s = cfg (ps_shard x0) ∧ left (ab_at m q) s l ∧ panic_left m q (sh_iter (ps_shard x0)) (sh_iter s).
Definition Qp (x0 : pshard) m q x : Prop :=
  (ps_poisoned x = false → fine x0 m q (ps_shard x) (ps_filled x)) ∧
  (ps_poisoned x = true → std = true ∧ may_poison m q = true).
Lemma left_same m q (d d' : contents P) : d' ≡ₚ d → panic_left m q d d'.
Proof.
  intros H. unfold panic_left. destruct (calm_at q); [done|]. destruct (written (as_cmd m)) as [[k v]|] eqn:Hw; [|done].
  destruct (written_state _ _ _ Hw) as [rs _]. apply (start_now rs). by left.
Qed.
Lemma Qp_same x0 m q x : live x → cfg (ps_shard x) = cfg (ps_shard x0) → sh_iter (ps_shard x) ≡ₚ sh_iter (ps_shard x0) → Qp x0 m q x.
Proof.
  intros (Hp & HI & Hl) Hc Hi. split; [|by rewrite Hp]. intros _. split_and!; [done|done| |by apply left_same].
  eapply left_sub; [| |exact Hl]; [by left|done].
Qed.
Lemma Qp_now x0 m q : live x0 → Qp x0 m q x0.
Proof. intros. by apply Qp_same. Qed.

(* a section under the write lock *)
Lemma tw_write {A} x0 m E (R : pshard * A → Prop) x (f : shard → Crash.M (shard * A)) :
  ps_poisoned x = false → al (f (ps_shard x)) → (∀ q : point, inside q = true → may_poison m (SP q) = true) →
  tr (λ (q : point) s', fine x0 m (SP q) s' (ps_filled x)) (f (ps_shard x)) →
  wp E (f (ps_shard x)).2 (λ '(s', a), R (ps_set x s', a)) →
  tw (Qp x0 m) E R (locked std true x f).
Proof.
  intros Hp Hal Hm Htr Hwp. unfold locked. rewrite Hp. split.
  - intros q x' [[q' s'] [E1 Hin]]%elem_of_list_fmap Hok. injection E1 as -> ->.
    unfold Qp, ps_poison, ps_set. simpl. rewrite Hp. simpl. destruct std eqn:Hs.
    + split; [done|]. intros _. split; [done|]. apply Hm. by eapply Hal.
    + split; [|done]. intros _. destruct Hok as [?|Hh]; [congruence|]. by apply Htr.
  - simpl. destruct (f (ps_shard x)).2 as [[s' a]|e]; done.
Qed.
(* a section under the read lock *)
Lemma tw_read {A} x0 m E (R : pshard * A → Prop) x (f : shard → Crash.M (shard * A)) :
  live x → (∀ (q : point) s, (q, s) ∈ (f (ps_shard x)).1 → s = ps_shard x) →
  cfg (ps_shard x) = cfg (ps_shard x0) → sh_iter (ps_shard x) ≡ₚ sh_iter (ps_shard x0) →
  wp E (f (ps_shard x)).2 (λ '(s', a), R (ps_set x s', a)) →
  tw (Qp x0 m) E R (locked std false x f).
Proof.
  intros Hl Hs Hc Hi Hwp. pose proof Hl as [Hp _]. unfold locked. rewrite Hp. split.
  - intros q x' [[q' s'] [E1 Hin]]%elem_of_list_fmap Hok. injection E1 as -> ->. apply Hs in Hin as ->.
    by apply Qp_same.
  - simpl. destruct (f (ps_shard x)).2 as [[s' a]|e]; done.
Qed.
Lemma get_pts s h k (q : point) s' : (q, s') ∈ (c_get s h k).1 → s' = s.
Proof.
  unfold c_get, mbind; simpl. intros [?|Hin]%elem_of_cons; [by simplify_eq|by apply elem_of_nil in Hin].
Qed.
Lemma reads_pts s (mc : cmd P) (q : point) s' : reads mc = true → (q, s') ∈ (inner s mc).1 → s' = s.
Proof.
  intros Hr. destruct mc; try done; cbn [inner]; unfold c_contains, c_get, c_peek, mbind; cbn [fst snd pt lift].
  - destruct (sh_contains _ _ _); simpl; (intros [?|Hin]%elem_of_cons; [by simplify_eq|by apply elem_of_nil in Hin]).
  - destruct (sh_get _ _ _) as [[??]|]; simpl; (intros [?|Hin]%elem_of_cons; [by simplify_eq|by apply elem_of_nil in Hin]).
  - destruct (sh_peek _ _ _); simpl; (intros [?|Hin]%elem_of_cons; [by simplify_eq|by apply elem_of_nil in Hin]).
Qed.

(* ---- plain calls ---- *)
Definition loads_key m k : Prop := match m with SValueOrGuard _ k' _ | SGetOrInsert _ k' _ => k' = k | _ => False end.
Definition settled (x0 : pshard) m x : Prop :=
  ∀ id k, pend_of (ps_shard x) id = Some k → ¬ cancels (sh_target_hot (ps_shard x0)) m k.
Definition Rp (x0 : pshard) m : pshard * out → Prop := λ '(x, o), live x ∧ settled x0 m x ∧ cfg (ps_shard x) = cfg (ps_shard x0) ∧
  let s := ps_shard x0 in s_does (sh_capacity s) (sh_target_hot s) (sh_iter s) m o (sh_iter (ps_shard x)).
Lemma cmd_ok s (mc : cmd P) : Inv s → sync_cmd mc = true → wp (xfails s (XCmd mc)) (exec s mc) (λ '(s', o), xok s (XCmd mc) (XO o) s').
Proof. intros HI Hs. pose proof (xexec_spec LW PI s (XCmd mc) HI Hs ltac:(done)) as H. unfold xexec in H. by destruct (exec s mc) as [[??]|]. Qed.
Lemma closed_part cap budget (d d' : contents P) (mc : cmd P) o : closes mc o = true → does cap budget d mc o d' →
  ∃ k v, written mc = Some (k, v) ∧ partway d k v d'.
Proof.
  intros Hc Hd. destruct mc; try done; simpl in *.
  - destruct Hd as (es & rs' & b & Hi & ->). eexists _, _. split; [done|]. by eapply inserts_part.
  - destruct Hd as (es & rs' & Hi & ->). eexists _, _. split; [done|]. by eapply inserts_part.
Qed.
Lemma after_settled budget m (mc : cmd P) pd id k : (m = SAll mc ∨ ∃ k, m = SKey k mc) → pend_after budget mc pd id = Some k → ¬ cancels budget m k.
Proof.
  intros Hm H Hc.
  assert (∀ k', pdel k' pd id = Some k → keqb P k k' = true → False) as Hdel.
  { intros k'. unfold pdel. destruct (pd id) as [k2|]; [|done]. destruct (keqb P k' k2) eqn:E; [done|]. intros [= ->] Hk. by rewrite (keqb_sym _ LW) in E. }
  destruct Hm as [->|[k0 ->]]; destruct mc; simpl in H, Hc; try done.
  - by eapply Hdel.
  - destruct Hc as [Hk Hr]. destruct (admission _ _ _ _) as [[[rs1 es] v1] b] eqn:Ha. simpl in H. destruct b; [|by eapply Hdel].
    apply Hr. by apply (admission_refused _ _ _ _ _ _ _ _ Ha).
Qed.
Lemma load_settled x0 m k x : loads_key m k → settled x0 m x.
Proof. intros H id k' _ Hc. by destruct m. Qed.
Lemma plain_spec x m mc keyed : live x → sync_cmd mc = true → as_cmd m = mc →
  (m = SAll mc ∨ ∃ k, m = SKey k mc) →
  tw (Qp x m) (sfails (ps_shard x) m) (Rp x m) (p_plain std x keyed mc).
Proof.
  intros Hl Hs Hac Hm. pose proof Hl as (Hp & HI & Hle). unfold p_plain.
  assert (∀ cap budget d o d', does cap budget d mc o d' → s_does cap budget d m o d') as Hsd.
  { intros. destruct Hm as [->|[k ->]]; done. }
  apply (tw_bind _ _ (λ _, True)); [apply tw_when; [|done]; intros _; apply tw_pt; [|done]; intros _; by apply Qp_now|]. intros _ _.
  apply (tw_bind _ _ (λ _, True)); [apply tw_when; [|done]; intros _; apply tw_pt; [|done]; intros _; by apply Qp_now|]. intros _ _.
  pose proof (cmd_ok _ _ HI Hs) as Hx. rewrite <-er_inner in Hx by done.
  set (R1 := λ '((x1, o) : pshard * out), Rp x m (x1, o) ∧ does (sh_capacity (ps_shard x)) (sh_target_hot (ps_shard x)) (sh_iter (ps_shard x)) mc o (sh_iter (ps_shard x1))).
  assert (wp (sfails (ps_shard x) m) (inner (ps_shard x) mc).2 (λ '(s', o), R1 (ps_set x s', o))) as Hwp.
  { destruct (inner (ps_shard x) mc).2 as [[s' o]|e]; simpl in Hx |- *.
    2:{ rewrite <-Hac in Hx. destruct e; try done. }
    destruct (xo_does _ _ _ _ Hx) as (_ & Hd & Hpd & _). split; [|done]. split_and!; [| |apply Hx|by apply Hsd].
    2:{ intros id k Hk. change (pend_of s' id = Some k) in Hk. rewrite (Hpd id) in Hk. by eapply after_settled. }
    split_and!; [done|apply Hx|]. eapply left_sub; [| |exact Hle]; [done|].
    intros id k Hk. change (pend_of s' id = Some k) in Hk. rewrite (Hpd id) in Hk. by eapply after_sub. }
  apply (tw_bind _ _ R1).
  { destruct (reads mc) eqn:Hr; simpl.
    - apply tw_read; try done. intros q s'. by apply reads_pts.
    - apply tw_write; [done|apply al_inner| | |done].
      + intros q Hq. destruct Hm as [->|[k ->]]; destruct q; simpl in *; try done; by rewrite Hr.
      + eapply tr_mono; [|by apply (tr_inner LW)]. intros q s' Hh [(HI' & Hc & Hi) Hn]. split_and!; [done|done| |].
        * eapply left_sub; [| |exact Hle]; [by left|]. by apply nonew_sub.
        * unfold panic_left. simpl. rewrite Hac. exact Hi. }
  intros [x1 o] [(Hl1 & Hst1 & Hc1 & Hs1) Hd1].
  apply (tw_bind _ _ (λ _, True)).
  { apply tw_when; [|done]. intros [Hr _]%andb_true_iff. apply tw_pt; [|done]. intros _. apply Qp_same; try done.
    destruct mc; try done; by destruct Hd1. }
  intros _ _. apply (tw_bind _ _ (λ _, True)); [|intros _ _; by apply tw_ret].
  apply tw_when; [|done]. intros Hcl. apply tw_pt; [|done]. intros _. destruct Hl1 as (Hp1 & HI1 & Hle1).
  split; [|by rewrite Hp1]. intros _. split_and!; [done|done| |].
  - eapply left_sub; [| |exact Hle1]; [by left|done].
  - unfold panic_left. simpl. rewrite Hac. destruct (closed_part _ _ _ _ _ _ Hcl Hd1) as (k & v & -> & H). done.
Qed.

(* ---- loads ---- *)
(* the state x1 in which the guard of a load p of k is alive, in a call that began in x0 *)
Record guarding (x0 x1 : pshard) k p : Prop := {
  gd_clean : ps_poisoned x1 = false;
  gd_inv : Inv (ps_shard x1);
  gd_cfg : cfg (ps_shard x1) = cfg (ps_shard x0);
  gd_iter : sh_iter (ps_shard x1) ≡ₚ sh_iter (ps_shard x0);
  gd_none : value_of k (sh_iter (ps_shard x0)) = None;
  gd_good : hgood (ps_shard x1) p;
  gd_pend : pend_of (ps_shard x1) (ph_id p) = Some k;
  gd_others : ∀ id k', pend_of (ps_shard x1) id = Some k' → id ≠ ph_id p → pend_of (ps_shard x0) id = Some k';
  gd_filled : ps_filled x1 = ps_filled x0;
}.
Definition Rv (x0 : pshard) k : pshard * (V + plh) → Prop := λ '(x1, r),
  match r with
  | inl v => live x1 ∧ cfg (ps_shard x1) = cfg (ps_shard x0) ∧ sh_iter (ps_shard x1) ≡ₚ sh_iter (ps_shard x0) ∧
      (value_of k (sh_iter (ps_shard x0)) = Some v ∨ value_of k (sh_iter (ps_shard x0)) = None ∧ ab k v)
  | inr p => guarding x0 x1 k p
  end.
Lemma loads_poison m k q : loads_key m k → match q with SP q => inside q = true | SClone => True | SPoisoned => False end → may_poison m q = true.
Proof. destruct m; try done; intros _; destruct q as [q| |]; try done; by destruct q. Qed.
Lemma Qp_poison x0 m k x : loads_key m k → live x → cfg (ps_shard x) = cfg (ps_shard x0) → sh_iter (ps_shard x) ≡ₚ sh_iter (ps_shard x0) →
  Qp x0 m SClone (ps_poison std x).
Proof.
  intros Hm Hl Hc Hi. destruct std eqn:Hs.
  - split; [unfold ps_poison; simpl; by rewrite orb_true_r|]. intros _. split; [done|]. by apply (loads_poison m k).
  - assert (ps_poison false x = x) as -> by (unfold ps_poison; rewrite orb_false_r; by destruct x).
    destruct Hl as (Hp & HI & Hl). split; [|by rewrite Hp]. intros _. split_and!; [done|done| |by apply left_same].
    eapply left_sub; [| |exact Hl]; [by left|done].
Qed.
Lemma vog_spec x m k : live x → loads_key m k → tw (Qp x m) (sfails (ps_shard x) m) (Rv x k) (p_value_or_guard std x k).
Proof.
  intros Hl Hm. pose proof Hl as (Hp & HI & Hle). unfold p_value_or_guard.
  apply (tw_bind _ _ (λ _, True)); [apply tw_pt; [|done]; intros _; by apply Qp_now|]. intros _ _.
  apply (tw_bind _ _ (λ '(x1, o), ∃ s1, x1 = ps_set x s1 ∧ quiet (ps_shard x) s1 ∧ o = value_of k (sh_iter (ps_shard x)))).
  { apply tw_read; try done; [intros q s'; apply get_pts|]. rewrite er_get.
    destruct (sh_get_spec LW (ps_shard x) k HI) as (s1 & -> & Hq & _). simpl. by exists s1. }
  intros [x1 o] (s1 & -> & Hq & ->).
  assert (live (ps_set x s1)) as Hl1.
  { split_and!; [done|apply Hq|]. eapply left_sub; [| |exact Hle]; [done|]. intros id k' Hk.
    change (pend_of s1 id = Some k') in Hk. by rewrite (pend_ext _ _ HI (q_inv _ _ Hq) (q_ph _ _ Hq)) in Hk. }
  assert (cfg s1 = cfg (ps_shard x)) as Hc1 by apply Hq.
  assert (sh_iter s1 ≡ₚ sh_iter (ps_shard x)) as Hi1 by (by rewrite (q_iter _ _ Hq)).
  destruct (value_of k (sh_iter (ps_shard x))) as [v|] eqn:Hv.
  { apply (tw_bind _ _ (λ _, True)); [apply tw_pt; [|done]; intros _; by apply Qp_same|]. intros _ _. apply tw_ret.
    split_and!; try done. by left. }
  pose proof (xexec_spec LW PI s1 (XJoin k) (q_inv _ _ Hq) I ltac:(done)) as Hx. unfold xexec in Hx.
  set (res := λ (r : (nat * V) + (plh * bool)), match r with inl (_, v) => XHit v | inr (p, true) => XNew p | inr (p, false) => XWait p end).
  apply (tw_bind _ _ (λ '(x2, r), ∃ s2, x2 = ps_set x s2 ∧ xok s1 (XJoin k) (res r) s2)).
  { apply tw_write; [done|apply al_upsert|intros; by apply (loads_poison m k)| |].
    - eapply tr_mono; [|eapply tr_both; [by apply (tr_upsert LW), Hq|by apply (tr_upsert_new LW), Hq]].
      intros q s' _ [(HI' & Hc' & Hi') Hn]. change (cfg s' = cfg s1) in Hc'. change (sh_iter s' ≡ₚ sh_iter s1) in Hi'.
      split_and!; [done|congruence| |apply left_same; by rewrite Hi', Hi1].
      eapply left_sub; [| |apply Hl1]; [by left|]. by apply nonew_sub; [apply Hq| |].
    - rewrite er_upsert. change (ps_shard (ps_set x s1)) with s1. destruct (upsert_placeholder s1 (hash P k) k) as [[s2 r]|e]; simpl in Hx |- *.
      + exists s2. split; [done|]. destruct r as [[??]|[? []]]; exact Hx.
      + destruct e; try done. simpl. by rewrite <-(q_used _ _ Hq). }
  intros [x2 r] (s2 & -> & Hok). pose proof (xo_does _ _ _ _ Hok) as Hd. pose proof (xo_inv _ _ _ _ Hok) as HI2.
  assert (cfg s2 = cfg (ps_shard x)) as Hc2 by (rewrite (xo_cfg _ _ _ _ Hok); done).
  assert (∀ v2, res r = XHit v2 → False) as Hnohit.
  { intros v2 E. rewrite E in Hd. simpl in Hd. destruct Hd as [Hd _]. rewrite (q_iter _ _ Hq) in Hd. congruence. }
  destruct r as [[t v]|[p [|]]]; [by destruct (Hnohit v)| |]; simpl in Hd.
  - destruct Hd as (_ & Hno & Hid & Hi2 & Hpd & _). apply tw_ret. destruct (xo_new _ _ _ _ Hok p eq_refl) as (_ & Hg & _).
    split; try done; simpl.
    + by rewrite Hi2.
    + rewrite (Hpd _). unfold pset. by rewrite decide_True.
    + intros id k' Hk Hne. rewrite (Hpd _) in Hk. unfold pset in Hk. rewrite decide_False in Hk by done.
      by rewrite (pend_ext _ _ HI (q_inv _ _ Hq) (q_ph _ _ Hq)) in Hk.
  - destruct Hd as (_ & (k' & Hk' & Hkk) & Hi2 & Hpd & _).
    destruct Hl1 as (_ & _ & Hle1). destruct (Hle1 _ _ Hk') as (v & Ha & Hv').
    change (ps_filled (ps_set x s2)) with (ps_filled (ps_set x s1)). rewrite Ha.
    assert (live (ps_set x s2)) as Hl2.
    { split_and!; [done|done|]. eapply left_sub; [| |exact Hle1]; [done|]. intros id k2 Hk2. change (pend_of s2 id = Some k2) in Hk2. by rewrite (Hpd id) in Hk2. }
    assert (sh_iter s2 ≡ₚ sh_iter (ps_shard x)) as Hi2' by (by rewrite Hi2).
    apply (tw_bind _ _ (λ _, True)); [apply tw_pt; [|done]; intros _; by apply (Qp_poison x m k)|]. intros _ _. apply tw_ret.
    split_and!; try done. right. split; [done|]. by eapply Hab.
Qed.
Lemma drop_spec x0 x1 k p : live x0 → guarding x0 x1 k p → ∃ x2, p_drop x1 p = Ok x2 ∧ live x2 ∧
  cfg (ps_shard x2) = cfg (ps_shard x0) ∧ sh_iter (ps_shard x2) ≡ₚ sh_iter (ps_shard x0).
Proof.
  intros (Hp0 & HI0 & Hle) [Hp HI Hc Hi Hv Hg Hpe Ho Hf]. unfold p_drop. rewrite Hp.
  pose proof (xexec_spec LW PI (ps_shard x1) (XDrop p) HI I) as H2. specialize (H2 ltac:(by intros ? [= <-])).
  destruct (remove_placeholder_spec LW (ps_shard x1) p HI (hgood_good PI _ _ Hg)) as (s' & Hr & _).
  unfold xexec in *. rewrite Hr in *. simpl in *. exists (ps_set x1 s'). split; [done|].
  pose proof (xo_does _ _ _ _ H2) as Hd. simpl in Hd. destruct Hd as (Hit & Hpd & _). split_and!.
  - split_and!; [done|apply H2|]. change (ps_filled (ps_set x1 s')) with (ps_filled x1). rewrite Hf.
    eapply left_sub; [| |exact Hle]; [done|]. intros id k' Hk. change (pend_of s' id = Some k') in Hk. rewrite (Hpd id) in Hk. unfold pset in Hk.
    case_decide; [done|]. by apply Ho.
  - rewrite <-Hc. apply H2.
  - simpl. by rewrite Hit.
Qed.
Lemma unwind_spec x0 x1 m k p E (R : () → Prop) q : live x0 → guarding x0 x1 k p → R () → tw (Qp x0 m) E R (unwind q x1 p).
Proof.
  intros Hl Hg HR. destruct (drop_spec _ _ _ _ Hl Hg) as (x2 & E2 & Hl2 & Hc2 & Hi2). unfold unwind. rewrite E2. split; [|done].
  simpl. intros q' x' Hin _. apply elem_of_list_singleton in Hin. injection Hin as -> ->. by apply Qp_same.
Qed.
Lemma partway_perm (d d2 : contents P) k v d' : d ≡ₚ d2 → partway d k v d' → partway d2 k v d'.
Proof.
  intros Hp (c0 & rs & es & rs' & He & H). exists c0, rs, es, rs'. split; [done|].
  assert (del k d ≡ₚ del k d2) as Hd by (by apply del_perm).
  destruct H as [H|[H|(kp & v1 & Hk & Hv & H)]].
  - left. by rewrite H.
  - right. left. by rewrite H.
  - right. right. exists kp, v1. split_and!; [done|done|]. by rewrite H, Hd.
Qed.
Lemma fill_spec x0 x1 m k rs p v wl : live x0 → guarding x0 x1 k p → loads_key m k → offers m = Some (k, v) → written (as_cmd m) = Some (k, v) →
  (in_overflow (sh_target_hot (ps_shard x0)) (sh_iter (ps_shard x0)) rs k v → sfails (ps_shard x0) m WeightOvf) →
  tw (Qp x0 m) (sfails (ps_shard x0) m) (λ '(x, o), live x ∧ cfg (ps_shard x) = cfg (ps_shard x0) ∧
    let s := ps_shard x0 in ∃ es rs', loads (sh_capacity s) (sh_target_hot s) rs (sh_iter s) k v es rs' (sh_iter (ps_shard x)) ∧
      o = reply rs es rs' wl RGuard false) (p_guard_insert std x1 rs p v wl).
Proof.
  intros Hl Hgd Hm Hof Hwr Hov. pose proof Hl as (Hp0 & HI0 & Hle). unfold p_guard_insert.
  apply (tw_bind _ _ (λ _, True)); [apply tw_when; [|done]; intros _; by eapply unwind_spec|]. intros _ _.
  destruct Hgd as [Hp HI Hc Hi Hv Hg Hpe Ho Hf]. set (x2 := ps_fill x1 p v).
  destruct (cfg_eq _ _ Hc) as [Hca Hta].
  assert (∀ g : K → V → Prop, (∀ k v, ab k v → g k v) → ∀ s', (∀ id k', pend_of s' id = Some k' → pend_of (ps_shard x1) id = Some k' ∧ id ≠ ph_id p) →
    left g s' (ps_filled x2)) as Hleft.
  { intros g Hgg s' Hs' id k' Hk'. destruct (Hs' _ _ Hk') as [H1 Hne]. simpl. destruct (N.eqb_spec (ph_id p) id) as [E|_]; [by destruct Hne|].
    rewrite Hf. destruct (Hle _ _ (Ho _ _ H1 Hne)) as (v' & ? & ?). eauto. }
  apply (tw_bind _ _ (λ _, True)).
  { apply tw_pt; [|done]. intros _. split; [|unfold x2; simpl; by rewrite Hp]. intros _. split_and!; [done|done| |by apply left_same].
    intros id k' Hk'. change (pend_of (ps_shard x1) id = Some k') in Hk'. unfold x2. simpl. destruct (N.eqb_spec (ph_id p) id) as [<-|Hne].
    - exists v. split; [done|]. rewrite Hpe in Hk'. injection Hk' as <-. right. split; [done|]. exists k. split; [done|]. apply (keqb_refl _ LW).
    - rewrite Hf. destruct (Hle _ _ (Ho _ _ Hk' (not_eq_sym Hne))) as (v' & ? & ?). exists v'. split; [done|]. by left. }
  intros _ _.
  pose proof (xexec_spec LW PI (ps_shard x1) (XFill rs p false v wl) HI I) as H2. specialize (H2 ltac:(by intros ? [= <-])). unfold xexec in H2.
  assert (find_key k (sh_iter (ps_shard x1)) = None) as Hfk.
  { assert (value_of k (sh_iter (ps_shard x1)) = None) as Hv1.
    { pose proof (inv_ukeys LW _ HI) as Hu. unfold value_of in *. by rewrite (find_key_perm LW k _ _ Hu Hi). }
    unfold value_of in Hv1. by destruct (find_key k (sh_iter (ps_shard x1))). }
  apply (tw_bind _ _ (λ '(x3, (l, o)), o = None ∧ live x3 ∧ cfg (ps_shard x3) = cfg (ps_shard x0) ∧
    let s := ps_shard x0 in ∃ es rs', loads (sh_capacity s) (sh_target_hot s) rs (sh_iter s) k v es rs' (sh_iter (ps_shard x3)) ∧
      finished rs l wl RGuard false = reply rs es rs' wl RGuard false)).
  { apply tw_write; [done| |intros; by apply (loads_poison m k)| |].
    - apply al_bind; [apply al_replace|]. intros [[??]?]. apply al_lift.
    - apply tr_bind; [|intros [[??]?] _; apply tr_lift].
      eapply tr_mono; [|apply (tr_place LW _ _ k); [done|by apply (hgood_good PI)|by rewrite (hgood_owned PI)|done]].
      intros q s' Hh [(HI' & Hc' & Hi') [Hn Hno]]. change (cfg s' = cfg (ps_shard x1)) in Hc'. split_and!; [done|congruence| |].
      + apply Hleft; [by left|]. intros id k' Hk'. split; [by apply (nonew_sub (ps_shard x1) s')|]. intros ->.
        apply pend_Some in Hk' as (t & q0 & Hq0 & Hid & _); [|done]. destruct (Hg _ _ _ (nonew_true _ _ _ _ Hn Hq0) Hid) as [Hps _].
        destruct (ph_id_lt _ _ _ _ HI' Hq0) as [_ Ht]. rewrite Hps in Ht. subst t. congruence.
      + change (ps_shard x2) with (ps_shard x1) in Hi'. unfold panic_left. simpl. rewrite Hwr. destruct (calm q); [by rewrite Hi'|].
        by eapply partway_perm.
    - unfold mbind. rewrite er_replace. change (ps_shard x2) with (ps_shard x1).
      destruct (replace_placeholder (ps_shard x1) (Lcs rs []) p false v) as [[[s3 l] o]|e]; simpl in H2 |- *.
      2:{ destruct e; try done. destruct H2 as (k' & Hk' & H2). apply Hov. rewrite Hpe in Hk'. injection Hk' as <-. rewrite Hta in H2. by eapply overflow_start. }
      pose proof (xo_does _ _ _ _ H2) as Hd. destruct o as [v'|]; simpl in Hd; [destruct Hd as [Hd _]; congruence|]. split; [done|].
      destruct Hd as (k' & es & rs' & Hk' & Hld & Hre & Hpd & _). rewrite Hpe in Hk'. injection Hk' as <-.
      split_and!.
      + split_and!; [done|apply H2|]. apply Hleft; [done|]. intros id k' Hk'. change (pend_of s3 id = Some k') in Hk'. rewrite (Hpd id) in Hk'. unfold pset in Hk'.
        by case_decide.
      + rewrite <-Hc. apply H2.
      + exists es, rs'. split; [|done]. rewrite Hca, Hta in Hld. by eapply loads_start. }
  intros [x3 [l o]] (-> & Hl3 & Hc3 & es & rs' & Hld & Hre).
  apply (tw_bind _ _ (λ _, True)); [|intros _ _; apply tw_ret; split_and!; eauto].
  apply tw_when; [|done]. intros _. apply tw_pt; [|done]. intros _. destruct Hl3 as (Hp3 & HI3 & Hle3). split; [|by rewrite Hp3]. intros _.
  split_and!; [done|done| |].
  - eapply left_sub; [| |exact Hle3]; [by left|done].
  - unfold panic_left. simpl. rewrite Hwr. eapply loads_part; [apply (keqb_refl _ LW)| |exact Hld].
    unfold value_of in Hv. by destruct (find_key k (sh_iter (ps_shard x0))).
Qed.

(* ---- every call ---- *)
Definition Rx (x0 : pshard) m : pshard * out → Prop := λ '(x, o), live x ∧ settled x0 m x ∧ cfg (ps_shard x) = cfg (ps_shard x0) ∧
  let s := ps_shard x0 in let d := sh_iter s in let d' := sh_iter (ps_shard x) in
  s_does (sh_capacity s) (sh_target_hot s) d m o d' ∨
  ∃ k v, loads_key m k ∧ value_of k d = None ∧ ab k v ∧ o = plain (RVal (Some v)) ∧ d' ≡ₚ d.
Lemma ps_spec x m : live x → api m → tw (Qp x m) (sfails (ps_shard x) m) (Rx x m) (ps_exec std x m).
Proof.
  intros Hl Hm. pose proof Hl as (Hp & HI & Hle).
  assert (∀ t, tw (Qp x m) (sfails (ps_shard x) m) (Rp x m) t → tw (Qp x m) (sfails (ps_shard x) m) (Rx x m) t) as Hplain.
  { intros t [H1 H2]. split; [done|]. destruct t as [l [[x' o]|e]]; simpl in *; [|done]. destruct H2 as (?&?&?&?). split_and!; auto. }
  destruct m as [k mc|mc|rs k g|rs k w]; cbn [ps_exec].
  - destruct Hm as [Hs _]. apply Hplain. apply plain_spec; eauto.
  - apply Hplain. apply plain_spec; eauto. by destruct Hm as [->|[->|[f ->]]].
  - apply (tw_bind _ _ (Rv x k)); [by apply vog_spec|]. intros [x1 [v|p]]; simpl.
    { intros (Hl1 & Hc1 & Hi1 & Hv). apply tw_ret. split_and!; [done|by eapply load_settled|try done..]. destruct Hv as [Hv|[Hv Hb]].
      - left. destruct g; simpl; by rewrite Hv.
      - right. by exists k, v. }
    intros Hgd. pose proof (gd_none _ _ _ _ Hgd) as Hv. destruct g as [v wl|]; simpl.
    + eapply (tw_mono _ _ _ _ _); [|eapply (fill_spec x x1 (SValueOrGuard rs k (SInsert v wl)) k rs p v wl); try done].
      * intros [x' o] (Hl' & Hc' & es & rs' & Hld & ->). split_and!; [done|by eapply load_settled|try done..]. left. simpl. rewrite Hv. exists k, es, rs'. split; [apply (keqb_refl _ LW)|]. done.
      * intros Ho. simpl. exists k. split; [apply (keqb_refl _ LW)|done].
    + destruct (drop_spec _ _ _ _ Hl Hgd) as (x2 & E2 & Hl2 & Hc2 & Hi2). rewrite E2. split; [intros q x' Hin; by apply elem_of_nil in Hin|]. simpl.
      split_and!; [done|by eapply load_settled|try done..]. left. simpl. by rewrite Hv.
  - apply (tw_bind _ _ (Rv x k)); [by apply vog_spec|]. intros [x1 [v|p]]; simpl.
    { intros (Hl1 & Hc1 & Hi1 & Hv). apply tw_ret. split_and!; [done|by eapply load_settled|try done..]. destruct Hv as [Hv|[Hv Hb]].
      - left. destruct w; simpl; by rewrite Hv.
      - right. by exists k, v. }
    intros Hgd. pose proof (gd_none _ _ _ _ Hgd) as Hv.
    apply (tw_bind _ _ (λ _, True)); [by eapply unwind_spec|]. intros _ _. destruct w as [v|].
    + apply (tw_bind _ _ (λ _, True)); [by eapply unwind_spec|]. intros _ _.
      eapply tw_bind; [eapply (fill_spec x x1 (SGetOrInsert rs k (Some v)) k rs p v false); try done|].
      * intros Ho. simpl. exists k. split; [apply (keqb_refl _ LW)|done].
      * intros [x' o] (Hl' & Hc' & es & rs' & Hld & ->). apply tw_ret. split_and!; [done|by eapply load_settled|try done..]. left. simpl. rewrite Hv. exists es, rs'. split; [done|].
        done.
    + simpl. destruct (drop_spec _ _ _ _ Hl Hgd) as (x2 & E2 & Hl2 & Hc2 & Hi2). rewrite E2. split; [intros q x' Hin; by apply elem_of_nil in Hin|]. simpl.
      split_and!; [done|by eapply load_settled|try done..]. left. simpl. by rewrite Hv.
Qed.
End calls.
