(* Crash.v without its points is the model. *)
From Verif Require Export Crash.

Section erase.
Context {P : Params} {B : Build}.
Notation shard := (shard P).
Notation M := (M (P:=P)).
Notation "'let*' x := m 'in' k" := (mbind m (λ x, k))
  (at level 200, x pattern, m at level 100, k at level 200, right associativity).
Implicit Types (s : shard) (l : lcs P).

Definition er {A} (m : M A) (r : res A) : Prop := m.2 = r.
Lemma er_bind {A C} (m : M A) r (f : A → M C) g :
  er m r → (∀ a, er (f a) (g a)) → er (mbind m f) (rbind r g).
Proof. unfold er, mbind. intros <- H. destruct m as [t [a|e]]; simpl; [apply H|done]. Qed.
Lemma er_lift {A} (r : res A) : er (lift r) r.
Proof. done. Qed.
Lemma er_pt p s {A} (f : () → M A) r : er (f ()) r → er (mbind (pt p s) f) r.
Proof. done. Qed.
Lemma er_bind_lift {A C} (r : res A) (f : A → M C) g : (∀ a, er (f a) (g a)) → er (mbind (lift r) f) (rbind r g).
Proof. intros H. apply er_bind; [done|exact H]. Qed.
Lemma er_ok {A C} (a : A) (f : A → M C) g : er (f a) g → er (mbind (lift (Ok a)) f) g.
Proof. done. Qed.
End erase.
Create HintDb er discriminated.
Ltac er := repeat first
  [ progress intros
  | match goal with |- er (lift ?r) ?r => exact (er_lift r) end
  | solve [auto with er nocore]
  | apply er_pt
  | apply er_bind
  | match goal with |- er (match ?x with _ => _ end) _ => destruct x end
  | match goal with |- er (let '(_, _) := ?x in _) _ => destruct x end ].

Section erase2.
Context {P : Params} {B : Build}.
Notation shard := (shard P).
Notation M := (M (P:=P)).
Notation "'let*' x := m 'in' k" := (mbind m (λ x, k))
  (at level 200, x pattern, m at level 100, k at level 200, right associativity).
Implicit Types (s : shard) (l : lcs P).

Lemma er_search s h k : er (c_search s h k) (search s h k).
Proof. unfold c_search. er. Qed.
Lemma er_search_resident s h k : er (c_search_resident s h k) (search_resident s h k).
Proof. unfold c_search_resident. er. Qed.
Lemma er_contains s h k : er (c_contains s h k) (sh_contains s h k).
Proof. unfold c_contains. er. Qed.
Lemma er_get s h k : er (c_get s h k) (sh_get s h k).
Proof. unfold c_get. er. Qed.
Lemma er_peek s h k : er (c_peek s h k) (sh_peek s h k).
Proof. unfold c_peek. er. Qed.
Hint Resolve er_search er_search_resident er_contains er_get er_peek : er.
Lemma er_get_mut s h k : er (c_get_mut s h k) (sh_get_mut s h k).
Proof. unfold c_get_mut, sh_get_mut. er. Qed.
Lemma er_peek_token_mut s t : er (c_peek_token_mut s t) (Ok (peek_token_mut s t)).
Proof. unfold c_peek_token_mut, peek_token_mut. destruct (slab_get _ _) as [[[]?]|]; er. Qed.
Lemma er_peek_mut s h k : er (c_peek_mut s h k) (sh_peek_mut s h k).
Proof. unfold c_peek_mut, sh_peek_mut. apply er_bind; [er|]. intros [[i r]|]; [apply er_peek_token_mut|done]. Qed.
Lemma er_refmut_drop s i w : er (c_refmut_drop s i w) (refmut_drop s i w).
Proof. unfold c_refmut_drop, refmut_drop. er. Qed.
Hint Resolve er_refmut_drop : er.
Lemma er_use_refmut s o f : er (c_use_refmut s o f) (use_refmut s o f).
Proof. unfold c_use_refmut, use_refmut. er. Qed.
Lemma er_remove_internal s h i : er (c_remove_internal s h i) (remove_internal s h i).
Proof. unfold c_remove_internal, remove_internal. er. Qed.
Hint Resolve er_get_mut er_peek_mut er_use_refmut er_remove_internal : er.
Lemma er_remove s h k : er (c_remove s h k) (sh_remove s h k).
Proof. unfold c_remove, sh_remove. er. Qed.
Lemma er_retain_remove q s : er (c_retain_remove s q) (retain_remove s q).
Proof. revert s. induction q as [|[i h] q IH]; intros s; simpl; er. Qed.
Lemma er_retain s f : er (c_retain s f) (sh_retain s f).
Proof. unfold c_retain. apply er_pt, er_retain_remove. Qed.
Hint Resolve er_remove er_retain : er.
Lemma er_hot_evict s l i r : er (c_hot_evict s l i r) (hot_evict s l i r).
Proof. unfold c_hot_evict, hot_evict. er. Qed.
Hint Resolve er_hot_evict : er.
Lemma er_advance_hot_loop n s l i u : er (c_advance_hot_loop n s l i u) (advance_hot_loop n s l i u).
Proof. revert s i u. induction n as [|n IH]; intros; simpl; er. Qed.
Hint Resolve er_advance_hot_loop : er.
Lemma er_advance_hot s l : er (c_advance_hot s l) (advance_hot s l).
Proof. unfold c_advance_hot, advance_hot. er. Qed.
Hint Resolve er_advance_hot : er.
Lemma er_trim n s l : er (c_trim_hot n s l) (trim_hot n s l).
Proof. revert s l. induction n as [|n IH]; intros; simpl; er. Qed.
Hint Resolve er_trim : er.
Lemma rbind_assoc {A C D} (m : res A) (f : A → res C) (g : C → res D) :
  rbind (rbind m f) g = rbind m (λ a, rbind (f a) g).
Proof. by destruct m. Qed.
Lemma promote_link_eq s l i r :
  cold_promote s l i r =
  (let r' := set_rstate (set_key_ref r (r_ref r - 1)) Hot in
   let! s := promote_link (set_entry s i (Resident r')) i r' in
   let! (s, l) := trim_hot (length (ents (sh_ents s)) + 1) s l in
   Ok (s, l, true)).
Proof.
  unfold cold_promote, promote_link. cbv zeta. rewrite rbind_assoc.
  destruct (add_weight _ _ _) as [s1|]; [|done]. cbn [rbind]. rewrite rbind_assoc.
  destruct (sub_weight _ _ _) as [s2|]; [|done]. cbn [rbind]. rewrite rbind_assoc.
  destruct (dec_num _ _) as [s3|]; [|done]. cbn [rbind]. rewrite rbind_assoc.
  destruct (slab_unlink _ _) as [[? ?]|]; [|done]. cbn [rbind]. rewrite rbind_assoc.
  by destruct (slab_link _ _ _) as [[? ?]|].
Qed.
Lemma er_promote s l i r : er (c_cold_promote s l i r) (cold_promote s l i r).
Proof. rewrite promote_link_eq. unfold c_cold_promote. cbv zeta. er. Qed.
Lemma er_cold_evict s l i r : er (c_cold_evict s l i r) (cold_evict s l i r).
Proof. unfold c_cold_evict, cold_evict. er. Qed.
Hint Resolve er_promote er_cold_evict : er.
Lemma er_advance_cold_loop n s l i : er (c_advance_cold_loop n s l i) (advance_cold_loop n s l i).
Proof. revert i. induction n as [|n IH]; intros; simpl; er. Qed.
Hint Resolve er_advance_cold_loop : er.
Lemma er_advance_cold s l : er (c_advance_cold s l) (advance_cold s l).
Proof. unfold c_advance_cold, advance_cold. er. Qed.
Hint Resolve er_advance_cold : er.
Lemma er_evict_loop n s l x : er (c_evict_loop n s l x) (evict_loop n s l x).
Proof. revert s l. induction n as [|n IH]; intros; simpl; er. Qed.
Hint Resolve er_evict_loop : er.
Lemma er_evict_until s l x : er (c_evict_until s l x) (evict_until s l x).
Proof. unfold c_evict_until, evict_until. er. Qed.
Hint Resolve er_evict_until : er.
Lemma er_existing s l i k v w st : er (c_insert_existing s l i k v w st) (insert_existing s l i k v w st).
Proof. unfold c_insert_existing, insert_existing. er. Qed.
Lemma er_over s l h k v st : er (c_handle_insert_overweight s l h k v st) (handle_insert_overweight s l h k v st).
Proof.
  unfold c_handle_insert_overweight, handle_insert_overweight. apply er_bind; [er|]. intros o. apply er_bind; [|er].
  destruct o as [[i r]|]; [|er]. apply er_bind; [er|]. intros [s' [[? ?]|]]; er.
Qed.
Lemma er_c_rehash_fail gr ip s d ps e : (c_rehash (P:=P) gr ip s d ps).2 = Fail e ↔ rehash ps (hasher s) = Fail e.
Proof.
  revert d. induction ps as [|[h i] ps IH]; intros d; simpl; [naive_solver|].
  unfold mbind. simpl. destruct (hasher s i) as [h'|]; simpl; [|naive_solver].
  rewrite IH. destruct (rehash ps (hasher s)); naive_solver.
Qed.
Lemma er_map_insert gr ip s h t : er (c_map_insert (P:=P) gr ip s h t) (map_insert s h t).
Proof.
  unfold er, c_map_insert, map_insert, tinsert, c_grow. destruct (grows P (sh_map s)); [|done].
  unfold mbind at 1. destruct (c_rehash _ _ _ _ _) as [tr [[]|e]] eqn:E; simpl; [done|].
  pose proof (proj1 (er_c_rehash_fail gr ip s [] (tpairs (sh_map s)) e)) as H. rewrite E in H. by rewrite H.
Qed.
Lemma er_reserve s : er (P:=P) (c_reserve s) (sh_reserve s).
Proof.
  unfold er, c_reserve, sh_reserve, treserve, c_grow. destruct (grows P (sh_map s)); [|done].
  unfold mbind at 1. destruct (c_rehash _ _ _ _ _) as [tr [[]|e]] eqn:E; simpl; [done|].
  pose proof (proj1 (er_c_rehash_fail PReserveGrow PReserveInPlace s [] (tpairs (sh_map s)) e)) as H. rewrite E in H. by rewrite H.
Qed.
Hint Resolve er_existing er_over er_map_insert er_reserve : er.
Lemma er_insert s l h k v st : er (c_insert s l h k v st) (sh_insert s l h k v st).
Proof. unfold c_insert, sh_insert. er. Qed.
Lemma er_over2 s l p k v : er (c_handle_overweight_replace_placeholder s l p k v) (handle_overweight_replace_placeholder s l p k v).
Proof. unfold c_handle_overweight_replace_placeholder, handle_overweight_replace_placeholder. er. Qed.
Hint Resolve er_insert er_over2 : er.
Lemma er_replace s l p b v : er (c_replace_placeholder s l p b v) (replace_placeholder s l p b v).
Proof. unfold c_replace_placeholder, replace_placeholder. er. Qed.
Lemma er_upsert s h k : er (c_upsert_placeholder s h k) (upsert_placeholder s h k).
Proof. unfold c_upsert_placeholder, upsert_placeholder. er. Qed.
Hint Resolve er_replace er_upsert : er.
Lemma er_unwinding {A} p (m : M A) r : er m r → er (unwinding (P:=P) p m) r.
Proof. done. Qed.
Lemma er_end {A C} s wl (a : A) (f : A → M C) r : er (f a) r → er (mbind (end_request s wl a) f) r.
Proof. by destruct wl. Qed.
Lemma er_end' {A} s wl (a : A) : er (P:=P) (end_request s wl a) (Ok a).
Proof. by destruct wl. Qed.
Lemma er_assoc {A C D} (m : M A) (f : A → M C) (g : C → M D) r :
  er (mbind m (λ a, mbind (f a) g)) r → er (mbind (mbind m f) g) r.
Proof. unfold er, mbind. destruct m as [t [a|e]]; simpl; [|done]. by destruct (f a) as [t' [c|e]]. Qed.
Lemma er_fill s rs p v wl r called (f : shard * lcs P → M (shard * out P)) :
  (∀ s l, er (f (s, l)) (Ok (s, finished rs l wl r called))) → er (mbind (c_fill s rs p v) f) (u_fill s rs p v wl r called).
Proof.
  intros H. unfold c_fill, u_fill. apply er_assoc, er_pt, er_assoc. apply er_bind; [er|]. intros [[s' l] o].
  apply er_assoc. apply er_bind; [er|]. intros _. apply H.
Qed.
Lemma er_fill_bind {A} s rs p v wl r called (f : shard * lcs P → M A) (g : shard * out P → res A) :
  (∀ s l, er (f (s, l)) (g (s, finished rs l wl r called))) →
  er (mbind (c_fill s rs p v) f) (rbind (u_fill s rs p v wl r called) g).
Proof.
  intros H. unfold c_fill, u_fill. apply er_assoc, er_pt, er_assoc. rewrite rbind_assoc. apply er_bind; [er|]. intros [[s' l] o].
  apply er_assoc. rewrite rbind_assoc. apply er_bind; [er|]. intros _. apply H.
Qed.
Lemma er_use_guard s rs p g : er (c_use_guard s rs p g) (use_guard s rs p g).
Proof.
  destruct g as [v wl| |]; simpl; [|er|er].
  assert (∀ {A} (m : M (shard * lcs P)) (f : _ → M A) r, er (mbind m f) r → er (mbind (unwinding p m) f) r) as Hg.
  { intros A m f r. unfold er, mbind, unwinding. simpl. by destruct m as [t [a|e]]. }
  apply Hg, er_fill. intros s' l. apply er_end'.
Qed.
Hint Resolve er_use_guard : er.
Lemma er_peek_bind {A} s t (f : _ → M A) r : er (f (peek_token_mut s t)) r → er (mbind (c_peek_token_mut s t) f) r.
Proof. unfold er, mbind. by rewrite er_peek_token_mut. Qed.
Lemma er_exec s m : er (c_exec s m) (exec s m).
Proof.
  destruct m; simpl; unfold u_contains, u_get, u_peek, u_remove, u_get_mut, u_peek_mut, u_replace, u_insert, sh_drain, u_get_or_insert,
    u_get_mut_or_insert, u_ref_or_guard, u_mut_or_guard, c_u_replace, c_u_insert, c_u_get_or_insert, c_u_get_mut_or_insert, c_u_ref_or_guard,
    c_u_mut_or_guard.
  1-3: er.
  1-2: apply er_pt; rewrite rbind_assoc; er.
  1: er.
  - do 2 apply er_pt. apply er_bind; [er|]. intros [[s' l] [kv|]]; [er|apply er_end'].
  - do 2 apply er_pt. apply er_bind; [er|]. intros [[s' l] o]. apply er_bind; [er|]. intros _. apply er_end'.
  - er.
  - er.
  - destruct (slab_drain (sh_ents s)). er.
  - er.
  - apply er_pt, er_bind; [er|]. intros [s' [[i v]|[p b]]]; [er|]. apply er_pt. destruct w as [v|]; [|er].
    apply er_fill_bind. intros s'' l. apply er_end'.
  - apply er_pt, er_bind; [er|]. intros [s' [[i v]|[p b]]].
    + apply er_peek_bind. er.
    + apply er_pt. destruct w as [v|]; [|er]. apply er_fill_bind. intros s'' l. apply er_end.
      apply er_peek_bind. er.
  - er.
  - apply er_pt, er_bind; [er|]. intros [s' [[i v]|[p b]]]; [|er].
    apply er_peek_bind. er.
Qed.
End erase2.
