(* Proofs about borrowed keys. *)
From Verif Require Import SeqProofs5 BorrowSpec.

Section same.
Context {P : Params} {B : Build} (F : Form P) (LF : Lawful_form F).
Notation K := (K P). Notation shard := (shard P).
Implicit Types (s : shard) (k : K) (e : K → bool).

Definition as_key e k : Prop := ∀ k', e k' = keqb P k k'.

Lemma b_search_eq s h e k : as_key e k → b_search s h e = search s h k.
Proof.
  intros H. unfold b_search, search. generalize (@None nat). induction (probe P (sh_map s) h) as [|i l IH]; intros hm; simpl; [done|].
  destruct (entry_at s i) as [[r|p|g]|]; simpl; rewrite ?H; by repeat (case_match; [|]); rewrite ?IH.
Qed.
Lemma b_find_eq s h e k : as_key e k → tfind P (sh_map s) h (b_match s e) = tfind P (sh_map s) h (res_match s k).
Proof.
  intros H. unfold tfind. induction (probe P (sh_map s) h) as [|i l IH]; simpl; [done|].
  assert (b_match s e i = res_match s k i) as ->; [|by rewrite IH].
  unfold b_match, res_match. destruct (entry_at s i) as [[r|p|g]|]; simpl; by rewrite ?H.
Qed.
Lemma b_search_resident_eq s h e k : as_key e k → b_search_resident s h e = search_resident s h k.
Proof. intros H. unfold b_search_resident. by rewrite (b_find_eq _ _ _ _ H). Qed.
Lemma b_upsert_eq s h e k : as_key e k → b_upsert_placeholder s h e k = upsert_placeholder s h k.
Proof. intros H. unfold b_upsert_placeholder. by rewrite (b_search_eq _ _ _ _ H). Qed.

Lemma form_as_key q k : feqb F q k = true → as_key (feqb F q) k.
Proof. intros H k'. by apply (form_eq _ LF). Qed.
Lemma b_exec_same s m k : feqb F (the_form F m) k = true → loading F m = false ∨ own F (the_form F m) = k →
  b_exec F s m = exec s (with_key F m k).
Proof.
  intros Hq Hl. pose proof (form_as_key _ _ Hq) as Hk. pose proof (form_hash _ LF _ _ Hq) as Hh.
  destruct m; simpl in *; try (destruct Hl as [?|Ho]; [done|]);
    unfold u_contains, u_get, u_peek, u_get_mut, u_peek_mut, u_remove, u_get_or_insert, u_get_mut_or_insert, u_ref_or_guard, u_mut_or_guard,
      b_contains, b_get, b_peek, b_get_mut, b_peek_mut, b_remove, b_upsert, sh_contains, sh_get, sh_peek, sh_get_mut, sh_peek_mut, sh_remove;
    rewrite ?Hh, ?Ho, ?(b_find_eq _ _ _ _ Hk), ?(b_search_resident_eq _ _ _ _ Hk), ?(b_search_eq _ _ _ _ Hk), ?(b_upsert_eq _ _ _ _ Hk).
  all: repeat first [done | match goal with |- context [rbind ?m _] => destruct m as [[]|]; simpl end | progress simpl].
  all: try (destruct (search_resident _ _ _) as [[[i r]|]|]; simpl; [|done..]).
  all: repeat first [done | match goal with |- context [rbind ?m _] => destruct m as [[]|]; simpl end | case_match].
Qed.

Lemma b_shard_for_eq c q k : feqb F q k = true → b_shard_for F c q = shard_for c k.
Proof. intros H. unfold b_shard_for, shard_for, shard_idx. by rewrite (form_hash _ LF _ _ H). Qed.
Lemma b_on_x {A} c q k (f : shard → res (shard * A)) (x : sect P) (g : xret P → A) (h : A → xret P) :
  feqb F q k = true → (∀ a, g (h a) = a) → (∀ s, xexec s x = let! (s, a) := f s in Ok (s, h a)) →
  on_key c k x = let! (c, a) := b_on F c q f in Ok (c, h a).
Proof.
  intros Hq Hg Hx. unfold on_key, b_on. rewrite (b_shard_for_eq c q k Hq). destruct (shard_for c k) as [j|]; simpl; [|done].
  unfold on_shard. destruct (sc_shards c !! j) as [s|]; simpl; [|done]. rewrite Hx. by destruct (f s) as [[s' a]|].
Qed.
Lemma b_on_ext {A} c q (f g : shard → res (shard * A)) : (∀ s, f s = g s) → b_on F c q f = b_on F c q g.
Proof. intros H. unfold b_on. destruct (unwrap (b_shard_for F c q)); simpl; [|done]. destruct (unwrap _); simpl; [|done]. by rewrite H. Qed.
Lemma on_key_cmd c q k m : feqb F q k = true →
  (let! (c, r) := on_key c k (XCmd m) in match r with XO o => Ok (c, o) | _ => Fail Panic end) = b_on F c q (λ s, exec s m).
Proof.
  intros Hq. rewrite (b_on_x c q k (λ s, exec s m) (XCmd m) (λ r, match r with XO o => o | _ => plain RUnit end) XO Hq) by done.
  by destruct (b_on F c q _) as [[c' o]|].
Qed.
Lemma b_use_guard_eq c q k rs p g : feqb F q k = true → b_use_guard F c q rs p g = s_use_guard c k rs p g.
Proof.
  intros Hq. unfold b_use_guard, s_use_guard.
  assert (∀ x, on_key c k x = b_on F c q (λ s, xexec s x)) as H; [|destruct g; by rewrite H].
  intros x. rewrite (b_on_x c q k (λ s, xexec s x) x id id Hq).
  - by destruct (b_on F c q _) as [[c' o]|].
  - done.
  - intros s. by destruct (xexec s x) as [[]|].
Qed.
Lemma b_value_or_guard_eq c q k : feqb F q k = true → own F q = k → b_value_or_guard F c q = s_value_or_guard c k.
Proof.
  intros Hq Ho. pose proof (form_as_key _ _ Hq) as Hk. pose proof (form_hash _ LF _ _ Hq) as Hh. unfold b_value_or_guard, s_value_or_guard.
  rewrite (b_on_x c q k (λ s, b_get s (fhash F q) (feqb F q)) (XCmd (CGet k))
    (λ r, match r with XO (Out (RVal o) _ _ _) => o | _ => None end) (λ o, XO (plain (RVal o))) Hq); [|done|].
  2:{ intros s. simpl. unfold u_get, sh_get, b_get. rewrite Hh, (b_search_resident_eq _ _ _ _ Hk). by destruct (search_resident _ _ _) as [[[i r]|]|]. }
  destruct (b_on F c q _) as [[c' o]|]; simpl; [|done]. destruct o as [v|]; [done|].
  rewrite (b_on_ext c' q (λ s, b_upsert F s q) (λ s, upsert_placeholder s (hash P k) k)).
  2:{ intros s. unfold b_upsert. by rewrite Hh, Ho, (b_upsert_eq _ _ _ _ Hk). }
  unfold on_key, b_on. rewrite (b_shard_for_eq c' q k Hq). destruct (shard_for c' k) as [j|]; simpl; [|done].
  unfold on_shard. destruct (sc_shards c' !! j) as [s|]; simpl; [|done].
  by destruct (upsert_placeholder s (hash P k) k) as [[s' [[i v]|[p []]]]|].
Qed.
Lemma b_sc_exec_same c m k : feqb F (s_the_form F m) k = true → s_loading F m = false ∨ own F (s_the_form F m) = k →
  b_sc_exec F c m = sc_exec c (s_with_key F m k).
Proof.
  intros Hq Hl. destruct m; simpl in *; try (destruct Hl as [?|Ho]; [done|]);
    rewrite ?(on_key_cmd _ _ _ _ Hq), ?(b_value_or_guard_eq _ _ _ Hq Ho).
  1: apply b_on_ext; intros s; apply (b_exec_same s (BContains F q) k Hq); by left.
  1: apply b_on_ext; intros s; apply (b_exec_same s (BGet F q) k Hq); by left.
  1: apply b_on_ext; intros s; apply (b_exec_same s (BPeek F q) k Hq); by left.
  1: apply b_on_ext; intros s; apply (b_exec_same s (BRemove F q) k Hq); by left.
  - destruct (s_value_or_guard c k) as [[c' [v|p]]|]; simpl; [done| |done]. by apply b_use_guard_eq.
  - destruct (s_value_or_guard c k) as [[c' [v|p]]|]; simpl; [done| |done]. destruct w as [v|].
    + pose proof (b_use_guard_eq c' q k rs p (SInsert v false) Hq) as H. simpl in H. by rewrite H.
    + pose proof (b_use_guard_eq c' q k rs p SDrop Hq) as H. simpl in H. by rewrite H.
Qed.
End same.

Section foreign.
Context {P : Params} (LW : Lawful P) (F : Form P) (LF : Lawful_form F).
Notation K := (K P). Notation shard := (shard P). Notation contents := (contents P).
Implicit Types (s : shard) (k : K) (e : K → bool) (c : contents).

Definition unknown s e : Prop := ∀ t x k', mapped s t → its_of s !! t = Some (Some x) → ekey x = Some k' → e k' = false.
Lemma known_dec s e : unknown s e ∨ ∃ k, e k = true.
Proof.
  set (b t := match its_of s !! t with Some (Some x) => match ekey x with Some k' => e k' | None => false end | _ => false end).
  destruct (existsb b (tpairs (sh_map s)).*2) eqn:E.
  - right. apply existsb_exists in E as (t & _ & Ht). unfold b in Ht. destruct (its_of s !! t) as [[x|]|]; try done.
    destruct (ekey x) as [k|]; [by exists k|done].
  - left. intros t x k' Hm Ht Hk. destruct (e k') eqn:E2; [|done]. exfalso. rewrite <-not_true_iff_false in E. apply E.
    apply existsb_exists. exists t. split; [by apply elem_of_list_In|]. unfold b. by rewrite Ht, Hk.
Qed.
Lemma b_search_unknown s h e : Inv s → unknown s e →
  ∃ o, b_search s h e = Ok o ∧ ∀ t, o = Some t → mapped s t ∧ its_of s !! t = Some (Some (Ghost h)).
Proof.
  intros HI Hu. unfold b_search.
  assert (∀ t, t ∈ probe P (sh_map s) h → mapped s t) as Hl by (intros t Hin; by apply (probe_sound _ LW) in Hin).
  assert (∀ t, @None nat = Some t → mapped s t ∧ its_of s !! t = Some (Some (Ghost h))) as Hhm by done.
  revert Hl Hhm. generalize (@None nat). induction (probe P (sh_map s) h) as [|t l IH]; intros hm Hl Hhm; simpl; [eauto|].
  assert (mapped s t) as Hmt by (apply Hl; left). pose proof HI as (rs & fl & HI0).
  destruct (m_tok _ _ _ _ (i_map _ _ _ HI0) Hmt) as (x & Hx & _). rewrite (entry_at_ok _ _ _ Hx). simpl.
  assert (∀ t, t ∈ l → mapped s t) as Hl' by (intros; apply Hl; by right).
  destruct x as [r|p|g].
  - rewrite (Hu t _ (r_key r) Hmt Hx) by done. by apply IH.
  - rewrite (Hu t _ (p_key p) Hmt Hx) by done. by apply IH.
  - apply IH; [done|]. destruct (N.eqb_spec g h) as [->|]; [|done]. by intros t' [= <-].
Qed.
Lemma b_find_unknown s h e : Inv s → unknown s e → tfind P (sh_map s) h (b_match s e) = Ok None.
Proof.
  intros HI Hu. unfold tfind.
  assert (∀ t, t ∈ probe P (sh_map s) h → mapped s t) as Hl by (intros t Hin; by apply (probe_sound _ LW) in Hin).
  revert Hl. induction (probe P (sh_map s) h) as [|t l IH]; intros Hl; simpl; [done|].
  assert (mapped s t) as Hmt by (apply Hl; left). pose proof HI as (rs & fl & HI0).
  destruct (m_tok _ _ _ _ (i_map _ _ _ HI0) Hmt) as (x & Hx & _). unfold b_match at 1. rewrite (entry_at_ok _ _ _ Hx). simpl.
  destruct x as [r|p|g]; simpl; [rewrite (Hu t _ (r_key r) Hmt Hx) by done| |]; apply IH; intros; apply Hl; by right.
Qed.
Lemma b_none_unknown s h e : Inv s → unknown s e → b_search_resident s h e = Ok None.
Proof. intros HI Hu. unfold b_search_resident. by rewrite b_find_unknown. Qed.
Lemma unknown_iter s e p : Inv s → unknown s e → p ∈ sh_iter s → e p.1 = false.
Proof.
  intros HI Hu. destruct p as [k v]. intros (t & r & Ht & <- & <-)%iter_elem. simpl. eapply Hu; [by eapply res_mapped|done|done].
Qed.
Lemma find_unknown q c : (∀ p, p ∈ c → feqb F q p.1 = false) → find_form F q c = None.
Proof.
  unfold find_form. induction c as [|p c IH]; simpl; [done|]. intros H. rewrite (H p) by left. apply IH. intros; apply H; by right.
Qed.
Lemma filter_unknown q c : (∀ p, p ∈ c → feqb F q p.1 = false) → List.filter (λ p, negb (feqb F q p.1)) c = c.
Proof.
  induction c as [|p c IH]; simpl; [done|]. intros H. rewrite (H p) by left. simpl. f_equal. apply IH. intros; apply H; by right.
Qed.
Lemma map_unknown q (f : V P → V P) c : (∀ p, p ∈ c → feqb F q p.1 = false) → changed_form F q f c = c.
Proof.
  induction c as [|p c IH]; simpl; [done|]. intros H. rewrite (H p) by left. f_equal. apply IH. intros; apply H; by right.
Qed.

(* the two specifications agree when the form has a key *)
Lemma find_form_key q k c : feqb F q k = true → find_form F q c = find_key k c.
Proof.
  intros H. unfold find_form. induction c as [|p c IH]; simpl; [done|]. by rewrite (form_eq _ LF q k p.1 H), IH.
Qed.
Lemma filter_form_key q k c : feqb F q k = true → List.filter (λ p, negb (feqb F q p.1)) c = del k c.
Proof.
  intros H. unfold del. induction c as [|p c IH]; simpl; [done|]. by rewrite (form_eq _ LF q k p.1 H), IH.
Qed.
Lemma map_form_key q k (f : V P → V P) c : feqb F q k = true →
  changed_form F q f c = Spec.upd k f c.
Proof.
  intros H. unfold Spec.upd. induction c as [|p c IH]; simpl; [done|]. by rewrite (form_eq _ LF q k p.1 H), IH.
Qed.
Lemma b_does_key cap budget c m k o c' : feqb F (the_form F m) k = true → loading F m = false →
  does cap budget c (with_key F m k) o c' → b_does F c m o c'.
Proof.
  intros Hq Hl H. destruct m; simpl in *; try done;
    by rewrite ?(find_form_key _ _ _ Hq), ?(filter_form_key _ _ _ Hq), ?(map_form_key _ _ _ _ Hq).
Qed.

Lemma b_exec_unknown s m : Inv s → unknown s (feqb F (the_form F m)) → loading F m = false →
  ∃ s' o, b_exec F s m = Ok (s', o) ∧ Inv s' ∧ cfg s' = cfg s ∧ b_does F (sh_iter s) m o (sh_iter s').
Proof.
  intros HI Hu Hl. pose proof (λ p, unknown_iter s _ p HI Hu) as Hc.
  destruct m as [q|q|q|q f|q f|q|???|????|???|????]; simpl in *; try done.
  - unfold b_contains. rewrite b_find_unknown by done. simpl. eexists _, _. split_and!; [done|done|done|done|]. by rewrite find_unknown.
  - unfold b_get. rewrite b_none_unknown by done. simpl. rewrite find_unknown by done.
    pose proof (quiet_miss _ _ (quiet_refl s HI)) as Hq. eexists _, _. split_and!; [done|by apply (q_inv _ _ Hq)|by apply (q_cfg _ _ Hq)|by rewrite (q_iter _ _ Hq)|done].
  - unfold b_peek. rewrite b_none_unknown by done. simpl. rewrite find_unknown by done. eexists _, _. by split_and!.
  - unfold b_get_mut. rewrite b_none_unknown by done. simpl. rewrite find_unknown, map_unknown by done.
    pose proof (quiet_miss _ _ (quiet_refl s HI)) as Hq. eexists _, _. split_and!; [done|by apply (q_inv _ _ Hq)|by apply (q_cfg _ _ Hq)|by rewrite (q_iter _ _ Hq)|done].
  - unfold b_peek_mut. rewrite b_none_unknown by done. simpl. rewrite find_unknown, map_unknown by done. eexists _, _. by split_and!.
  - unfold b_remove. rewrite find_unknown, filter_unknown by done.
    destruct (b_search_unknown s (fhash F q) (feqb F q) HI Hu) as (o & -> & Ho). simpl. destruct o as [t|]; [|eexists _, _; by split_and!].
    destruct (Ho t eq_refl) as [Hm Ht]. destruct (remove_internal_spec LW s t _ HI Ht Hm) as (s' & Hrm & HI' & Hit & Hmap & Hst).
    simpl in Hrm. rewrite Hrm. simpl. eexists _, _. split_and!; [done|done|by destruct (cfg_static _ _ Hst)| |done]. rewrite !sh_iter_kvs, Hit. by rewrite (kvs_same _ _ _ _ Ht).
Qed.

Lemma b_step s m : Inv s → loading F m = false ∨ owns F →
  (∃ k, feqb F (the_form F m) k = true ∧ (loading F m = true → k = own F (the_form F m)) ∧ b_exec F s m = exec s (with_key F m k)) ∨
  (loading F m = false ∧ unknown s (feqb F (the_form F m))).
Proof.
  intros HI Hl. destruct (loading F m) eqn:E.
  - destruct Hl as [?|Ho]; [done|]. left. exists (own F (the_form F m)). split_and!; [apply Ho|done|]. apply b_exec_same; [done|apply Ho|by right].
  - destruct (known_dec s (feqb F (the_form F m))) as [Hu|[k Hk]]; [by right|]. left. exists k. split_and!; [done|done|].
    apply b_exec_same; [done|done|by left].
Qed.
Lemma b_reached_inv budget ghosts cap s : b_reached F budget ghosts cap s →
  Inv s ∧ sh_capacity s = cap ∧ sh_target_hot s = budget.
Proof.
  assert (∀ s s', cfg s' = cfg s → sh_capacity s' = sh_capacity s ∧ sh_target_hot s' = sh_target_hot s) as cfg_eq.
  { intros ??. unfold cfg. by intros [= ? ? ?]. }
  induction 1 as [|s m s' o _ (HI & Hc & Ht) E|s m s' o _ (HI & Hc & Ht) Hl E].
  - split; [apply sh_new_inv|done].
  - pose proof (exec_spec LW s m HI) as H. rewrite E in H. destruct H as [HI' Hcfg _ _ _ _ _ _].
    destruct (cfg_eq _ _ Hcfg). split_and!; congruence || done.
  - destruct (b_step s m HI Hl) as [(k & _ & _ & Hk)|[Hl' Hu]].
    + rewrite Hk in E. pose proof (exec_spec LW s (with_key F m k) HI) as H. rewrite E in H. destruct H as [HI' Hcfg _ _ _ _ _ _].
      destruct (cfg_eq _ _ Hcfg). split_and!; congruence || done.
    + destruct (b_exec_unknown s m HI Hu Hl') as (s2 & o2 & E2 & HI' & Hcfg & _). rewrite E in E2. injection E2 as <- <-.
      destruct (cfg_eq _ _ Hcfg). split_and!; congruence || done.
Qed.
Definition b_over c (m : bcmd F) (x : fail) : Prop := x = WeightOvf ∧ b_overflows F c m.
Lemma b_lookup s m : Inv s → loading F m = false →
  wp (b_over (sh_iter s) m) (b_exec F s m) (λ '(s', o), b_does F (sh_iter s) m o (sh_iter s')).
Proof.
  intros HI Hl. destruct (b_step s m HI (or_introl Hl)) as [(k & Hq & _ & Hk)|[_ Hu]].
  - rewrite Hk. assert (∀ s' o, exec s (with_key F m k) = Ok (s', o) → b_does F (sh_iter s) m o (sh_iter s')) as Hd.
    { intros s' o E. eapply (b_does_key (sh_capacity s) (sh_target_hot s)); [done|done|].
      pose proof (exec_spec LW s (with_key F m k) HI) as H. rewrite E in H. apply H. }
    destruct (exec s (with_key F m k)) as [[s' o]|x] eqn:E; simpl; [by apply Hd|]. clear Hd Hk.
    destruct m as [q|q|q|q f|q f|q|???|????|???|????]; simpl in *; try done.
    + unfold u_contains in E. by rewrite (sh_contains_spec LW) in E.
    + unfold u_get in E. by destruct (sh_get_spec LW s k HI) as (s' & E2 & _); rewrite E2 in E.
    + unfold u_peek in E. by rewrite (sh_peek_spec LW) in E.
    + unfold u_get_mut in E. destruct (sh_get_mut_spec LW s k HI) as (s1 & o & E2 & Hq1 & _ & Hr). rewrite E2 in E. simpl in E.
      pose proof (use_refmut_spec LW (b_over (sh_iter s) (BGetMut F q f)) s1 k o f (q_inv _ _ Hq1) Hr) as H.
      destruct (use_refmut s1 o f) as [[]|x']; simpl in E; [done|]. injection E as ->. apply H. intros Hw. split; [done|].
      simpl. rewrite (map_form_key _ _ _ _ Hq). by rewrite <-(q_iter _ _ Hq1).
    + unfold u_peek_mut in E. destruct (sh_peek_mut_spec LW s k HI) as (o & E2 & Hr). rewrite E2 in E. simpl in E.
      pose proof (use_refmut_spec LW (b_over (sh_iter s) (BPeekMut F q f)) s k o f HI Hr) as H.
      destruct (use_refmut s o f) as [[]|x']; simpl in E; [done|]. injection E as ->. apply H. intros Hw. split; [done|].
      simpl. by rewrite (map_form_key _ _ _ _ Hq).
    + unfold u_remove in E. by destruct (sh_remove_spec LW s k HI) as (s' & E2 & _); rewrite E2 in E.
  - destruct (b_exec_unknown s m HI Hu Hl) as (s' & o & -> & _ & _ & H). done.
Qed.
End foreign.
