(* Two facts about every call on every state whatsoever, reachable or not, and for every user
   code, lawful or not: what the debug build completes the release build completes with the same
   result; and neither build reaches undefined behaviour. *)
From Verif Require Export PropSpec Sync.

(* ---- debug and release ---- *)
(* m' does what m does, unless m stops at an assertion or an arithmetic check *)
Definition kept {A} (m m' : res A) : Prop := m = Fail Panic ∨ m = Fail WeightOvf ∨ m' = m.
Lemma kept_refl {A} (m : res A) : kept m m.
Proof. by right; right. Qed.
Lemma kept_fail {A} (m : res A) : kept (Fail Panic) m.
Proof. by left. Qed.
Lemma kept_bind {A C} (m m' : res A) (k k' : A → res C) :
  kept m m' → (∀ a, kept (k a) (k' a)) → kept (rbind m k) (rbind m' k').
Proof. intros [->|[->| ->]] Hk; [by left|by right; left|]. destruct m as [a|f]; [apply Hk|apply kept_refl]. Qed.
Lemma kept_ok {A} (m m' : res A) a : kept m m' → m = Ok a → m' = Ok a.
Proof. intros [->|[->| ->]]; done. Qed.
Lemma kept_assert b : kept (assert (B:=debug) b) (assert (B:=release) b).
Proof. destruct b; [by right; right|by left]. Qed.
Lemma kept_wadd a b : kept (wadd (B:=debug) a b) (wadd (B:=release) a b).
Proof. unfold wadd. destruct (_ <? _)%N; [by right; right|by right; left]. Qed.
Lemma kept_wsub a b : kept (wsub (B:=debug) a b) (wsub (B:=release) a b).
Proof. unfold wsub. destruct (_ <=? _)%N; [by right; right|by left]. Qed.
Create HintDb kept discriminated.
Global Hint Resolve kept_fail kept_assert kept_wadd kept_wsub : kept.
Ltac kept := repeat first
  [ progress intros
  | match goal with |- kept ?m ?m => exact (kept_refl m) end
  | solve [auto with kept nocore]
  | apply kept_bind
  | match goal with |- kept (match ?x with _ => _ end) _ => destruct x end
  | match goal with |- kept (let '(_, _) := ?x in _) _ => destruct x end ].

Section kept.
Context {T : Type}.
Implicit Types (s : slab T).
Notation D := debug. Notation R := release.
Lemma kept_insert s x : kept (slab_insert (B:=D) s x) (slab_insert (B:=R) s x).
Proof. unfold slab_insert. kept. Qed.
Lemma kept_link s i h : kept (slab_link (B:=D) s i h) (slab_link (B:=R) s i h).
Proof. unfold slab_link. kept. Qed.
Lemma kept_unlink s i : kept (slab_unlink (B:=D) s i) (slab_unlink (B:=R) s i).
Proof. unfold slab_unlink. kept. Qed.
Hint Resolve kept_unlink : kept.
Lemma kept_remove s i : kept (slab_remove (B:=D) s i) (slab_remove (B:=R) s i).
Proof. unfold slab_remove. kept. Qed.
End kept.
Global Hint Resolve kept_insert kept_link kept_unlink kept_remove : kept.

Section kept2.
Context {P : Params}.
Notation shard := (shard P).
Implicit Types (s : shard) (l : lcs P).
Notation D := debug. Notation R := release.
Lemma kept_sub_weight s st w : kept (sub_weight (B:=D) s st w) (sub_weight (B:=R) s st w).
Proof. unfold sub_weight. kept. Qed.
Lemma kept_add_weight s st w : kept (add_weight (B:=D) s st w) (add_weight (B:=R) s st w).
Proof. unfold add_weight. kept. Qed.
Lemma kept_dec_num s st : kept (dec_num (B:=D) s st) (dec_num (B:=R) s st).
Proof. unfold dec_num. kept. Qed.
Lemma kept_dec_nnr s : kept (dec_nnr (B:=D) s) (dec_nnr (B:=R) s).
Proof. unfold dec_nnr. kept. Qed.
Lemma kept_map_remove s h t : kept (map_remove (B:=D) s h t) (map_remove (B:=R) s h t).
Proof. unfold map_remove. apply kept_bind; [apply kept_refl|]. intros [i|]; [apply kept_refl|apply kept_fail]. Qed.
Hint Resolve kept_sub_weight kept_add_weight kept_dec_num kept_dec_nnr kept_map_remove : kept.
Lemma kept_change s i a b : kept (cold_change_weight (B:=D) s i a b) (cold_change_weight (B:=R) s i a b).
Proof. unfold cold_change_weight. kept. Qed.
Hint Resolve kept_change : kept.
Lemma kept_rdrop s i w : kept (refmut_drop (B:=D) s i w) (refmut_drop (B:=R) s i w).
Proof. unfold refmut_drop. kept. Qed.
Lemma kept_removei s h i : kept (remove_internal (B:=D) s h i) (remove_internal (B:=R) s h i).
Proof. unfold remove_internal. kept. Qed.
Hint Resolve kept_rdrop kept_removei : kept.
Lemma kept_sremove s h k : kept (sh_remove (B:=D) s h k) (sh_remove (B:=R) s h k).
Proof. unfold sh_remove. kept. Qed.
Lemma kept_rremove xs s : kept (retain_remove (B:=D) s xs) (retain_remove (B:=R) s xs).
Proof. revert s. induction xs as [|[i h] xs IH]; intros s; simpl; kept. Qed.
Hint Resolve kept_sremove kept_rremove : kept.
Lemma kept_aghost s : kept (advance_ghost (B:=D) s) (advance_ghost (B:=R) s).
Proof. unfold advance_ghost. kept. Qed.
Hint Resolve kept_aghost : kept.
Lemma kept_hevict s l i r : kept (hot_evict (B:=D) s l i r) (hot_evict (B:=R) s l i r).
Proof. unfold hot_evict. kept. Qed.
Hint Resolve kept_hevict : kept.
Lemma kept_ahl n s l i u : kept (advance_hot_loop (B:=D) n s l i u) (advance_hot_loop (B:=R) n s l i u).
Proof. revert s i u. induction n as [|n IH]; intros; simpl; kept. Qed.
Hint Resolve kept_ahl : kept.
Lemma kept_ahot s l : kept (advance_hot (B:=D) s l) (advance_hot (B:=R) s l).
Proof. unfold advance_hot. kept. Qed.
Hint Resolve kept_ahot : kept.
Lemma kept_trim n s l : kept (trim_hot (B:=D) n s l) (trim_hot (B:=R) n s l).
Proof. revert s l. induction n as [|n IH]; intros; simpl; kept. Qed.
Hint Resolve kept_trim : kept.
Lemma kept_promote s l i r : kept (cold_promote (B:=D) s l i r) (cold_promote (B:=R) s l i r).
Proof. unfold cold_promote. kept. Qed.
Lemma kept_cevict s l i r : kept (cold_evict (B:=D) s l i r) (cold_evict (B:=R) s l i r).
Proof. unfold cold_evict. kept. Qed.
Hint Resolve kept_promote kept_cevict : kept.
Lemma kept_acl n s l i : kept (advance_cold_loop (B:=D) n s l i) (advance_cold_loop (B:=R) n s l i).
Proof. revert s i. induction n as [|n IH]; intros; simpl; kept. Qed.
Hint Resolve kept_acl : kept.
Lemma kept_acold s l : kept (advance_cold (B:=D) s l) (advance_cold (B:=R) s l).
Proof. unfold advance_cold. kept. Qed.
Hint Resolve kept_acold : kept.
Lemma kept_eloop n s l x : kept (evict_loop (B:=D) n s l x) (evict_loop (B:=R) n s l x).
Proof. revert s l. induction n as [|n IH]; intros; simpl; kept. Qed.
Hint Resolve kept_eloop : kept.
Lemma kept_evict s l x : kept (evict_until (B:=D) s l x) (evict_until (B:=R) s l x).
Proof. unfold evict_until. kept. Qed.
Lemma kept_link_back s st i : kept (link_back (B:=D) s st i) (link_back (B:=R) s st i).
Proof. unfold link_back. kept. Qed.
Hint Resolve kept_evict kept_link_back : kept.
Lemma kept_existing s l i k v w st : kept (insert_existing (B:=D) s l i k v w st) (insert_existing (B:=R) s l i k v w st).
Proof. unfold insert_existing. kept. Qed.
Lemma kept_over s l h k v st : kept (handle_insert_overweight (B:=D) s l h k v st) (handle_insert_overweight (B:=R) s l h k v st).
Proof. unfold handle_insert_overweight. kept. Qed.
Hint Resolve kept_existing kept_over : kept.
Lemma kept_sinsert s l h k v st : kept (sh_insert (B:=D) s l h k v st) (sh_insert (B:=R) s l h k v st).
Proof. unfold sh_insert. kept. Qed.
Lemma kept_over2 s l p k v : kept (handle_overweight_replace_placeholder (B:=D) s l p k v) (handle_overweight_replace_placeholder (B:=R) s l p k v).
Proof. unfold handle_overweight_replace_placeholder. kept. Qed.
Hint Resolve kept_sinsert kept_over2 : kept.
Lemma kept_replace s l p b v : kept (replace_placeholder (B:=D) s l p b v) (replace_placeholder (B:=R) s l p b v).
Proof. unfold replace_placeholder. kept. Qed.
Lemma kept_upsert s h k : kept (upsert_placeholder (B:=D) s h k) (upsert_placeholder (B:=R) s h k).
Proof. unfold upsert_placeholder. kept. Qed.
Hint Resolve kept_replace kept_upsert : kept.
Lemma kept_use_refmut s o f : kept (use_refmut (B:=D) s o f) (use_refmut (B:=R) s o f).
Proof. unfold use_refmut. kept. Qed.
Lemma kept_fill s rs p v wl r c : kept (u_fill (B:=D) s rs p v wl r c) (u_fill (B:=R) s rs p v wl r c).
Proof. unfold u_fill. kept. Qed.
Hint Resolve kept_use_refmut kept_fill : kept.
Lemma kept_guard s rs p g : kept (use_guard (B:=D) s rs p g) (use_guard (B:=R) s rs p g).
Proof. unfold use_guard. kept. Qed.
Hint Resolve kept_guard : kept.
Lemma kept_exec s m : kept (exec (B:=D) s m) (exec (B:=R) s m).
Proof.
  destruct m; simpl; unfold u_get_mut, u_peek_mut, u_remove, u_replace, u_insert, sh_retain, u_get_or_insert, u_get_mut_or_insert,
    u_ref_or_guard, u_mut_or_guard; kept.
Qed.
Lemma kept_run s h : kept (run (B:=D) s h) (run (B:=R) s h).
Proof. revert s. induction h as [|m h IH]; intros s; simpl; [apply kept_refl|]. apply kept_bind; [apply kept_exec|]. kept. Qed.
Hint Resolve kept_exec : kept.
Lemma kept_xexec s x : kept (xexec (B:=D) s x) (xexec (B:=R) s x).
Proof. destruct x; simpl; kept. Qed.
Hint Resolve kept_xexec : kept.
Lemma kept_on_shard c j x : kept (on_shard (P:=P) (B:=D) c j x) (on_shard (B:=R) c j x).
Proof. unfold on_shard. kept. Qed.
Hint Resolve kept_on_shard : kept.
Lemma kept_on_key c k x : kept (on_key (P:=P) (B:=D) c k x) (on_key (B:=R) c k x).
Proof. unfold on_key. kept. Qed.
Lemma kept_on_shards c js x : kept (on_shards (P:=P) (B:=D) c js x) (on_shards (B:=R) c js x).
Proof. revert c. induction js as [|j js IH]; intros; simpl; kept. Qed.
Hint Resolve kept_on_key kept_on_shards : kept.
Lemma kept_sguard c k rs p g : kept (s_use_guard (P:=P) (B:=D) c k rs p g) (s_use_guard (B:=R) c k rs p g).
Proof. unfold s_use_guard. kept. Qed.
Lemma kept_value_or_guard c k : kept (s_value_or_guard (P:=P) (B:=D) c k) (s_value_or_guard (B:=R) c k).
Proof. unfold s_value_or_guard. kept. Qed.
Hint Resolve kept_sguard kept_value_or_guard : kept.
Lemma kept_sc_exec c m : kept (sc_exec (P:=P) (B:=D) c m) (sc_exec (B:=R) c m).
Proof. destruct m; simpl; unfold on_all; kept. Qed.
Lemma kept_sc_run c h : kept (sc_run (P:=P) (B:=D) c h) (sc_run (B:=R) c h).
Proof. revert c. induction h as [|m h IH]; intros c; simpl; [apply kept_refl|]. apply kept_bind; [apply kept_sc_exec|]. kept. Qed.
End kept2.

(* ---- undefined behaviour ---- *)
Definition safe {A} (m : res A) : Prop := m ≠ Fail UB.
Lemma safe_ok {A} (a : A) : safe (Ok a).
Proof. done. Qed.
Lemma safe_bind {A C} (m : res A) (k : A → res C) :
  safe m → (∀ a, m = Ok a → safe (k a)) → safe (rbind m k).
Proof. unfold safe. intros Hm Hk. destruct m as [a|f]; simpl; [by apply Hk|]. congruence. Qed.
Lemma safe_unwrap {A} (o : option A) : safe (unwrap o).
Proof. by destruct o. Qed.
Create HintDb safe discriminated.
Global Hint Resolve safe_ok safe_unwrap : safe.
Ltac safe := repeat first
  [ progress intros
  | solve [auto with safe nocore]
  | match goal with |- safe (Fail _) => unfold safe; congruence end
  | apply safe_bind
  | match goal with |- safe (match ?x with _ => _ end) => destruct x eqn:? end
  | match goal with |- safe (let '(_, _) := ?x in _) => destruct x eqn:? end ].

Section safe.
Context {B : Build}.
Lemma safe_assert b : safe (assert b).
Proof. unfold assert. destruct b, (is_debug); done. Qed.
Lemma safe_wadd a b : safe (wadd a b).
Proof. unfold wadd. by destruct (_ <? _)%N, (is_debug). Qed.
Lemma safe_wsub a b : safe (wsub a b).
Proof. unfold wsub. by destruct (_ <=? _)%N, (is_debug). Qed.
End safe.
Global Hint Resolve safe_assert safe_wadd safe_wsub : safe.

Section safe1.
Context {T : Type} {B : Build}.
Implicit Types (s : slab T).
Lemma safe_at s i : safe (at_ s i).
Proof. apply safe_unwrap. Qed.
Hint Resolve safe_at : safe.
Lemma safe_insert s x : safe (slab_insert s x).
Proof. unfold slab_insert. safe. Qed.
Lemma safe_link s i h : safe (slab_link s i h).
Proof. unfold slab_link. safe. Qed.
Lemma safe_unlink s i : safe (slab_unlink s i).
Proof. unfold slab_unlink. safe. Qed.
Hint Resolve safe_unlink : safe.
Lemma safe_remove s i : safe (slab_remove s i).
Proof. unfold slab_remove. safe. Qed.

Lemma items_upd s i e e' : ents s !! i = Some e → item e' = item e →
  ∀ j, item <$> ents (Slab.upd s i e') !! j = item <$> ents s !! j.
Proof.
  intros Hi He j. unfold Slab.upd. simpl. destruct (decide (i = j)) as [<-|Hj].
  - rewrite list_lookup_insert by (by eapply lookup_lt_Some). rewrite Hi. simpl. by rewrite He.
  - by rewrite list_lookup_insert_ne.
Qed.
Lemma at_ok s i e : at_ s i = Ok e → ents s !! i = Some e.
Proof. unfold at_. destruct (ents s !! i); simpl; congruence. Qed.
Lemma bind_ok {A C} (m : res A) (k : A → res C) c : rbind m k = Ok c → ∃ a, m = Ok a ∧ k a = Ok c.
Proof. destruct m; simpl; [eauto|done]. Qed.
(* unlinking an entry, or not, changes no item *)
Lemma items_unlink s i s' o : slab_unlink s i = Ok (s', o) → ∀ j, item <$> ents s' !! j = item <$> ents s !! j.
Proof.
  unfold slab_unlink. intros H j.
  apply bind_ok in H as (e & He & H). apply at_ok in He.
  apply bind_ok in H as (? & _ & H). case_bool_decide.
  - apply bind_ok in H as (? & _ & H). by injection H as <- _.
  - apply bind_ok in H as (e1 & He1 & H). apply at_ok in He1.
    apply bind_ok in H as (? & _ & H). apply bind_ok in H as (? & _ & H).
    apply bind_ok in H as (e2 & He2 & H). apply at_ok in He2.
    apply bind_ok in H as (? & _ & H). apply bind_ok in H as (? & _ & H).
    injection H as <- _.
    rewrite (items_upd _ _ _ _ He2), (items_upd _ _ _ _ He1), (items_upd _ _ _ _ He) by done. done.
Qed.
(* a removed entry is handed back *)
Lemma remove_item s i s' o e x : ents s !! i = Some e → item e = Some x → slab_remove s i = Ok (s', o) →
  ∃ n, o = Some (x, n).
Proof.
  intros He Hx H. unfold slab_remove in H. apply bind_ok in H as ([s1 n] & Hu & H).
  apply bind_ok in H as (e1 & He1 & H). apply at_ok in He1.
  pose proof (items_unlink _ _ _ _ Hu i) as Hi. rewrite He1, He in Hi. simpl in Hi. injection Hi as Hi.
  rewrite Hi, Hx in H. injection H as _ <-. eauto.
Qed.
Lemma get_at s i x n : slab_get s i = Some (x, n) → ∃ e, ents s !! i = Some e ∧ item e = Some x.
Proof. unfold slab_get. destruct (ents s !! i) as [e|] eqn:?; [|done]. destruct (item e) eqn:?; intros; simplify_eq; eauto. Qed.
Lemma set_at s i e x : ents s !! i = Some e → ∃ e', ents (slab_set s i x) !! i = Some e' ∧ item e' = Some x.
Proof.
  intros He. unfold slab_set. rewrite He. simpl. eexists. rewrite list_lookup_insert by (by eapply lookup_lt_Some). split; [done|done].
Qed.
Lemma set_get s i x n y : slab_get s i = Some (x, n) → ∃ n', slab_get (slab_set s i y) i = Some (y, n').
Proof.
  intros (e & He & _)%get_at. destruct (set_at s i e y He) as (e' & He' & Hi). unfold slab_get. rewrite He', Hi. eauto.
Qed.
End safe1.
Global Hint Resolve safe_insert safe_link safe_unlink safe_remove : safe.

Section safe2.
Context {P : Params} {B : Build}.
Notation shard := (shard P).
Implicit Types (s : shard) (l : lcs P).

Lemma safe_scan (eq : nat → res bool) ts : (∀ t, safe (eq t)) → safe (scan ts eq).
Proof. intros He. induction ts as [|t ts IH]; simpl; safe. Qed.
Lemma scan_some (eq : nat → res bool) ts t : scan ts eq = Ok (Some t) → eq t = Ok true.
Proof.
  induction ts as [|t' ts IH]; simpl; [done|]. intros H. apply bind_ok in H as (b & Hb & H). destruct b; [|by apply IH].
  by injection H as ->.
Qed.
Lemma safe_rehash ts (f : nat → res N) : (∀ t, safe (f t)) → safe (rehash ts f).
Proof. intros Hf. induction ts as [|[h t] ts IH]; simpl; safe. Qed.
Lemma safe_entry s t : safe (entry_at s t).
Proof. unfold entry_at. safe. Qed.
Hint Resolve safe_entry safe_scan safe_rehash : safe.
Lemma safe_hasher s t : safe (hasher s t).
Proof. unfold hasher. safe. Qed.
Hint Resolve safe_hasher : safe.
Lemma safe_map_insert s h t : safe (map_insert s h t).
Proof. unfold map_insert, tinsert. safe. Qed.
Lemma safe_map_remove s h t : safe (map_remove s h t).
Proof. unfold map_remove, tfind. safe. Qed.
Lemma safe_remove_placeholder s p : safe (remove_placeholder s p).
Proof. unfold remove_placeholder, tfind. safe. apply safe_scan. safe. Qed.
Lemma safe_reserve s : safe (sh_reserve s).
Proof. unfold sh_reserve, treserve. safe. Qed.
Hint Resolve safe_map_insert safe_map_remove safe_remove_placeholder safe_reserve : safe.
Lemma safe_res_match s k t : safe (res_match s k t).
Proof. unfold res_match. safe. Qed.
Hint Resolve safe_res_match : safe.
Lemma safe_search_resident s h k : safe (search_resident s h k).
Proof.
  unfold search_resident, tfind. apply safe_bind; [safe|]. intros [i|] Hs; [|safe]. apply scan_some in Hs.
  unfold res_match in Hs. apply safe_bind; [safe|]. intros e He. rewrite He in Hs. simpl in Hs. destruct e; simplify_eq; safe.
Qed.
Lemma search_resident_at s h k i r : search_resident s h k = Ok (Some (i, r)) → entry_at s i = Ok (Resident r).
Proof.
  unfold search_resident. intros H. apply bind_ok in H as ([j|] & _ & H); [|done].
  apply bind_ok in H as (e & He & H). destruct e; by simplify_eq.
Qed.
Lemma entry_get s i e : entry_at s i = Ok e → ∃ n, slab_get (sh_ents s) i = Some (e, n).
Proof. unfold entry_at. destruct (slab_get _ i) as [[e' n]|]; simpl; intros; simplify_eq; eauto. Qed.
Hint Resolve safe_search_resident : safe.
Lemma safe_contains s h k : safe (sh_contains s h k).
Proof. unfold sh_contains, tfind. safe. Qed.
Lemma safe_get s h k : safe (sh_get s h k).
Proof. unfold sh_get. safe. Qed.
Lemma safe_peek s h k : safe (sh_peek s h k).
Proof. unfold sh_peek. safe. Qed.
Lemma safe_get_mut s h k : safe (sh_get_mut s h k).
Proof. unfold sh_get_mut. safe. Qed.
Lemma safe_peek_mut s h k : safe (sh_peek_mut s h k).
Proof. unfold sh_peek_mut. safe. Qed.
Lemma safe_sub_weight s st w : safe (sub_weight s st w).
Proof. unfold sub_weight. safe. Qed.
Lemma safe_add_weight s st w : safe (add_weight s st w).
Proof. unfold add_weight. safe. Qed.
Lemma safe_dec_num s st : safe (dec_num s st).
Proof. unfold dec_num. safe. Qed.
Lemma safe_dec_nnr s : safe (dec_nnr s).
Proof. unfold dec_nnr. safe. Qed.
Hint Resolve safe_contains safe_get safe_peek safe_get_mut safe_peek_mut safe_sub_weight safe_add_weight safe_dec_num safe_dec_nnr : safe.
Lemma safe_change s i a b : safe (cold_change_weight s i a b).
Proof. unfold cold_change_weight. safe. Qed.
Hint Resolve safe_change : safe.

(* the tokens that get_mut and the like hand out are those of cached items *)
Definition points s (o : option (nat * N)) : Prop :=
  ∀ t w, o = Some (t, w) → ∃ r n, slab_get (sh_ents s) t = Some (Resident r, n).
Lemma safe_use_refmut s o f : points s o → safe (use_refmut s o f).
Proof.
  intros Hp. unfold use_refmut. destruct o as [[t w]|]; [|safe]. destruct (Hp t w eq_refl) as (r & n & Hg).
  apply safe_bind; [unfold refmut_write; rewrite Hg; safe|]. unfold refmut_write. rewrite Hg. intros s' Hs. injection Hs as <-.
  destruct (set_get _ _ _ _ (Resident (set_rval r (f (r_val r)))) Hg) as [n' Hg'].
  unfold refmut_drop. simpl. rewrite Hg'. safe.
Qed.
Lemma points_token s t : points s (peek_token_mut s t).
Proof. intros t' w. unfold peek_token_mut. destruct (slab_get _ t) as [[[r| |] n]|] eqn:?; intros; simplify_eq; eauto. Qed.
Lemma points_get_mut s h k s' o : sh_get_mut s h k = Ok (s', o) → points s' o.
Proof.
  unfold sh_get_mut. intros H. apply bind_ok in H as ([[i r]|] & Hs & H); [|simplify_eq; by intros ???].
  apply bind_ok in H as (e & He & H). destruct e as [r'| |]; simplify_eq. intros t w Hx. simplify_eq.
  apply entry_get in He as [n Hg]. edestruct (set_get _ _ _ _ (Resident (if (r_ref r' <? MAX_F)%N then set_key_ref r' (r_ref r' + 1) else r')) Hg) as [n' Hg'].
  eauto.
Qed.
Lemma points_peek_mut s h k o : sh_peek_mut s h k = Ok o → points s o.
Proof.
  unfold sh_peek_mut. intros H. apply bind_ok in H as ([[i r]|] & Hs & H); simplify_eq; [apply points_token|by intros ???].
Qed.

Lemma safe_removei s h i : safe (remove_internal s h i).
Proof. unfold remove_internal. safe. Qed.
Lemma safe_search s h k : safe (search s h k).
Proof.
  unfold search. generalize (@None nat). induction (probe P (sh_map s) h) as [|t ts IH]; intros o; simpl; safe.
Qed.
Hint Resolve safe_removei safe_search : safe.
Lemma safe_sremove s h k : safe (sh_remove s h k).
Proof. unfold sh_remove. safe. Qed.
Lemma safe_rremove xs s : safe (retain_remove s xs).
Proof. revert s. induction xs as [|[i h] xs IH]; intros s; simpl; safe. Qed.
Lemma safe_aghost s : safe (advance_ghost s).
Proof. unfold advance_ghost. safe. Qed.
Hint Resolve safe_sremove safe_rremove safe_aghost : safe.
Lemma safe_hevict s l i r n x : slab_get (sh_ents s) i = Some (x, n) → safe (hot_evict s l i r).
Proof.
  intros Hg. unfold hot_evict. apply safe_bind; [safe|]. intros s1 H1.
  assert (sh_ents s1 = sh_ents s) as E1. { unfold sub_weight in H1. apply bind_ok in H1 as (? & _ & H1). by injection H1 as <-. }
  destruct (call_before l (r_key r) (r_val r)) as [l' v']. destruct (rweight _ =? 0)%N; [safe|].
  apply safe_bind; [safe|]. intros s2 H2.
  assert (sh_ents s2 = slab_set (sh_ents s) i (Resident (set_rval r v'))) as E2.
  { unfold dec_num in H2. apply bind_ok in H2 as (? & _ & H2). injection H2 as <-. simpl. by rewrite E1. }
  apply safe_bind; [safe|]. intros [es o] H3. rewrite E2 in H3.
  apply get_at in Hg as (e & He & _). destruct (set_at (sh_ents s) i e (Resident (set_rval r v')) He) as (e' & He' & Hi).
  destruct (remove_item _ _ _ _ _ _ He' Hi H3) as [m ->]. safe.
Qed.
Lemma safe_ahl n s l i u : safe (advance_hot_loop n s l i u).
Proof.
  revert s i u. induction n as [|n IH]; intros; simpl; [safe|]. apply safe_bind; [safe|]. intros [e nx] He.
  destruct e as [r| |]; [|safe|safe]. apply safe_bind; [safe|]. intros _ _. destruct (rpinned r); [safe|]. destruct (negb _); [safe|].
  eapply safe_hevict. unfold unwrap in He. destruct (slab_get (sh_ents s) i) eqn:?; [|done]. by injection He as ->.
Qed.
Hint Resolve safe_ahl : safe.
Lemma safe_ahot s l : safe (advance_hot s l).
Proof. unfold advance_hot. safe. Qed.
Hint Resolve safe_ahot : safe.
Lemma safe_trim n s l : safe (trim_hot n s l).
Proof. revert s l. induction n as [|n IH]; intros; simpl; safe. Qed.
Hint Resolve safe_trim : safe.
Lemma safe_promote s l i r : safe (cold_promote s l i r).
Proof. unfold cold_promote. safe. Qed.
Lemma safe_cevict s l i r : safe (cold_evict s l i r).
Proof. unfold cold_evict. safe. Qed.
Hint Resolve safe_promote safe_cevict : safe.
Lemma safe_acl n s l i : safe (advance_cold_loop n s l i).
Proof. revert s i. induction n as [|n IH]; intros; simpl; safe. Qed.
Hint Resolve safe_acl : safe.
Lemma safe_acold s l : safe (advance_cold s l).
Proof. unfold advance_cold. safe. Qed.
Hint Resolve safe_acold : safe.
Lemma safe_eloop n s l x : safe (evict_loop n s l x).
Proof. revert s l. induction n as [|n IH]; intros; simpl; safe. Qed.
Hint Resolve safe_eloop : safe.
Lemma safe_evict s l x : safe (evict_until s l x).
Proof. unfold evict_until. safe. Qed.
Lemma safe_link_back s st i : safe (link_back s st i).
Proof. unfold link_back. safe. Qed.
Hint Resolve safe_evict safe_link_back : safe.
Lemma safe_existing s l i k v w st : safe (insert_existing s l i k v w st).
Proof. unfold insert_existing. safe. Qed.
Lemma safe_over s l h k v st : safe (handle_insert_overweight s l h k v st).
Proof. unfold handle_insert_overweight. safe. Qed.
Hint Resolve safe_existing safe_over : safe.
Lemma safe_sinsert s l h k v st : safe (sh_insert s l h k v st).
Proof. unfold sh_insert. safe. Qed.
Lemma safe_over2 s l p k v : safe (handle_overweight_replace_placeholder s l p k v).
Proof. unfold handle_overweight_replace_placeholder. safe. Qed.
Hint Resolve safe_sinsert safe_over2 : safe.
Lemma safe_replace s l p b v : safe (replace_placeholder s l p b v).
Proof. unfold replace_placeholder. safe. Qed.
Lemma safe_upsert s h k : safe (upsert_placeholder s h k).
Proof. unfold upsert_placeholder. safe. Qed.
Hint Resolve safe_replace safe_upsert : safe.
Lemma safe_fill s rs p v wl r c : safe (u_fill s rs p v wl r c).
Proof. unfold u_fill. safe. Qed.
Hint Resolve safe_fill : safe.
Lemma safe_guard s rs p g : safe (use_guard s rs p g).
Proof. unfold use_guard. safe. Qed.
Hint Resolve safe_guard safe_use_refmut points_token : safe.
Lemma safe_exec s m : safe (exec s m).
Proof.
  destruct m; simpl; unfold u_contains, u_get, u_peek, u_remove, u_replace, u_insert, sh_retain, u_get_or_insert, u_get_mut_or_insert,
    u_ref_or_guard, u_mut_or_guard; [safe|safe|safe| | |safe..].
  - unfold u_get_mut. apply safe_bind; [|safe]. apply safe_bind; [safe|]. intros [s' o] Ho. apply safe_use_refmut. by eapply points_get_mut.
  - unfold u_peek_mut. apply safe_bind; [|safe]. apply safe_bind; [safe|]. intros o Ho. apply safe_use_refmut. by eapply points_peek_mut.
Qed.
Lemma safe_run s h : safe (run s h).
Proof. revert s. induction h as [|m h IH]; intros s; simpl; [safe|]. apply safe_bind; [apply safe_exec|]. safe. Qed.
Hint Resolve safe_exec : safe.
Lemma safe_xexec s x : safe (xexec s x).
Proof. destruct x; simpl; safe. Qed.
Hint Resolve safe_xexec : safe.
Lemma safe_on_shard (c : scache P) j x : safe (on_shard c j x).
Proof. unfold on_shard. safe. Qed.
Hint Resolve safe_on_shard : safe.
Lemma safe_on_key (c : scache P) k x : safe (on_key c k x).
Proof. unfold on_key. safe. Qed.
Lemma safe_on_shards (c : scache P) js x : safe (on_shards c js x).
Proof. revert c. induction js as [|j js IH]; intros; simpl; safe. Qed.
Hint Resolve safe_on_key safe_on_shards : safe.
Lemma safe_sguard (c : scache P) k rs p g : safe (s_use_guard c k rs p g).
Proof. unfold s_use_guard. safe. Qed.
Lemma safe_value_or_guard (c : scache P) k : safe (s_value_or_guard c k).
Proof. unfold s_value_or_guard. safe. Qed.
Hint Resolve safe_sguard safe_value_or_guard : safe.
Lemma safe_sc_exec (c : scache P) m : safe (sc_exec c m).
Proof. destruct m; simpl; unfold on_all; safe. Qed.
Lemma safe_sc_run (c : scache P) h : safe (sc_run c h).
Proof. revert c. induction h as [|m h IH]; intros c; simpl; [safe|]. apply safe_bind; [apply safe_sc_exec|]. safe. Qed.
End safe2.
