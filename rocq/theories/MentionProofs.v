(* Which hashes a cache can hold: only hashes of keys named by the calls made on it. This holds
   for every user code, lawful or not, and for both builds. *)
From Verif Require Export Mention.

Section hashes.
Context {P : Params} {B : Build} (H : N → Prop).
Notation shard := (shard P). Notation entry := (entry P). Notation resident := (resident P).
Implicit Types (s : shard) (l : lcs P).

Class Good (A : Type) := good : A → Prop.
Global Instance good_entry : Good entry := λ e, H (hash_of_entry e).
Global Instance good_res : Good resident := λ r, H (hash P (r_key r)).
Global Instance good_slab : Good (slab entry) := λ es, ∀ x, x ∈ ents es → ∀ e, item x = Some e → H (hash_of_entry e).
Global Instance good_node : Good (snode entry) := λ x, ∀ e, item x = Some e → H (hash_of_entry e).
Global Instance good_shard : Good shard := λ s, good (sh_ents s) ∧ ∀ p, p ∈ tpairs (sh_map s) → H p.1.
Global Instance good_table : Good table := λ m, ∀ p, p ∈ tpairs m → H p.1.
Global Instance good_pair A C `{Good A, Good C} : Good (A * C) := λ p, good p.1 ∧ good p.2.
Global Instance good_option A `{Good A} : Good (option A) := λ o, match o with Some a => good a | None => True end.
Global Instance good_any A : Good A | 100 := λ _, True.

Definition pp {A} `{Good A} (m : res A) : Prop := ∀ a, m = Ok a → good a.
Lemma pp_bind {A C} `{Good A, Good C} (m : res A) (k : A → res C) :
  pp m → (∀ a, m = Ok a → good a → pp (k a)) → pp (rbind m k).
Proof. intros Hm Hk c. destruct m as [a|f]; simpl; [|done]. apply Hk; [done|by apply Hm]. Qed.
Lemma pp_ok {A} `{Good A} (a : A) : good a → pp (Ok a).
Proof. by intros Hg ? [= <-]. Qed.
Lemma pp_fail {A} `{Good A} f : pp (Fail f : res A).
Proof. by intros ?. Qed.
Lemma pp_unwrap {A} `{Good A} (o : option A) : good o → pp (unwrap o).
Proof. destruct o; intros Hg a'; simpl; [|done]. by intros [= <-]. Qed.
Lemma pp_any {A} (m : res A) : pp (H0:=good_any A) m.
Proof. by intros ? ?. Qed.

Lemma good_set_ents s es : good s → good es → good (set_ents s es).
Proof. intros [? ?] ?. by split. Qed.
Lemma good_set_map s m : good s → good m → good (set_map s m).
Proof. intros [? ?] ?. by split. Qed.
Lemma good_set_acct s st a : good s → good (set_acct s st a).
Proof. by destruct st. Qed.
Lemma good_set_head s st a : good s → good (set_head s st a).
Proof. apply good_set_acct. Qed.
Lemma good_inc_num s st : good s → good (inc_num s st).
Proof. apply good_set_acct. Qed.
Lemma good_ghost_head s a : good s → good (set_ghost_head s a).
Proof. done. Qed.
Lemma good_nnr s a : good s → good (set_nnr s a).
Proof. done. Qed.
Lemma good_nph s a : good s → good (set_nph s a).
Proof. done. Qed.
Lemma good_hit s : good s → good (record_hit s).
Proof. done. Qed.
Lemma good_miss s : good s → good (record_miss s).
Proof. done. Qed.
Lemma good_ents s : good s → good (sh_ents s).
Proof. by intros [? ?]. Qed.
Lemma good_map s : good s → good (sh_map s).
Proof. by intros [? ?]. Qed.
Lemma good_upd (es : slab entry) i x : good es → good x → good (Slab.upd es i x).
Proof.
  intros He Hx y Hy. apply elem_of_list_lookup in Hy as (j & Hj). simpl in Hj.
  apply list_lookup_insert_Some in Hj as [(_ & -> & _)|(_ & Hj)]; [exact Hx|]. apply He. by eapply elem_of_list_lookup_2.
Qed.
Lemma good_set_links (x : snode entry) p n : good x → good (set_links x p n).
Proof. done. Qed.
Lemma pp_at (es : slab entry) i : good es → pp (at_ es i).
Proof. intros He x Hx e He'. unfold at_ in Hx. destruct (ents es !! i) eqn:E; [|done]. simpl in Hx. injection Hx as <-. eapply He; [|done]. by eapply elem_of_list_lookup_2. Qed.
Lemma good_get (es : slab entry) i : good es → good (slab_get es i).
Proof.
  intros He. unfold slab_get. destruct (ents es !! i) as [x|] eqn:E; [|done]. destruct (item x) as [e|] eqn:Ei; [|done].
  split; [|done]. simpl. eapply He; [|done]. by eapply elem_of_list_lookup_2.
Qed.
Lemma good_slab_set (es : slab entry) i e : good es → good e → good (slab_set es i e).
Proof. intros He Hx. unfold slab_set. destruct (_ !! i); [|done]. apply good_upd; [done|]. by intros ? [= <-]. Qed.
Lemma good_if (b : bool) s s' : good s → good s' → good (if b then s else s').
Proof. by destruct b. Qed.
Lemma good_set_entry s i e : good s → good e → good (set_entry s i e).
Proof. intros. apply good_set_ents; [done|]. apply good_slab_set; [by apply good_ents|done]. Qed.

Create HintDb good discriminated.
Hint Resolve good_set_ents good_set_map good_set_acct good_set_head good_inc_num good_ghost_head good_nnr good_nph good_hit
  good_miss good_ents good_map good_upd good_set_links good_get good_slab_set good_set_entry good_if pp_ok pp_fail pp_unwrap pp_any pp_at : good.
Ltac nothing := repeat match goal with
  | |- good (_, _) => split
  | |- good (Some ?a) => change (good a)
  | |- good None => exact I
  | |- good (A:=option _) ?x => destruct x
  | |- good (A:=prod _ _) ?x => destruct x
  | |- good _ => exact I
  end.
Ltac pp := repeat first
  [ solve [match goal with |- pp _ => intros ? _; nothing | |- good _ => nothing end]
  | progress intros
  | match goal with Hg : good (Some ?a) |- _ => change (good a) in Hg end
  | match goal with Hg : good (?a, ?b) |- _ => destruct Hg as [? ?]; cbn [fst snd] in * end
  | match goal with |- good (_, _) => split; cbn [fst snd] end
  | solve [auto 10 with good nocore]
  | match goal with |- pp (Fail _) => apply pp_fail end
  | apply pp_bind
  | apply pp_ok
  | match goal with |- pp (match ?x with _ => _ end) => destruct x eqn:? end
  | match goal with |- pp (let '(_, _) := ?x in _) => destruct x eqn:? end
  | match goal with |- good (if ?x then _ else _) => destruct x end ].

Lemma pp_insert (es : slab entry) e : good es → good e → pp (slab_insert es e).
Proof.
  intros He Hx [es' t]. unfold slab_insert. destruct (ents es !! next_free es) as [x|] eqn:E.
  - destruct (assert _); simpl; [|done]. intros [= <- <-]. split; [|done]. simpl. 
    apply (good_upd (Slab (ents es) (nxt x))); [done|]. by intros ? [= <-].
  - destruct (assert _); simpl; [|done]. destruct (_ =? _)%N; [done|]. intros [= <- <-]. split; [|done]. intros y Hy. simpl in Hy.
    apply elem_of_app in Hy as [Hy|Hy%elem_of_list_singleton]; [by apply He|]. subst y. by intros ? [= <-].
Qed.
Lemma pp_link (es : slab entry) i h : good es → pp (slab_link es i h).
Proof. intros He. unfold slab_link. pp. Qed.
Lemma pp_unlink (es : slab entry) i : good es → pp (slab_unlink es i).
Proof. intros He. unfold slab_unlink. pp. Qed.
Hint Resolve pp_insert pp_link pp_unlink : good.
Lemma good_vacant (es : slab entry) i n p m : good es → good (Slab (<[i := SNode None n p]> (ents es)) m).
Proof. intros He. apply (good_upd (Slab (ents es) m)); [done|]. by intros ?. Qed.
Hint Resolve good_vacant : good.
Lemma pp_remove (es : slab entry) i : good es → pp (slab_remove es i).
Proof.
  intros He. unfold slab_remove. apply pp_bind; [auto with good nocore|]. intros [es1 n] _ [Hg _]. cbn [fst] in Hg.
  apply pp_bind; [auto with good nocore|]. intros x _ Hx. destruct (item x) as [e|] eqn:E; apply pp_ok; (split; [cbn [fst]; by try apply good_vacant|]); [|done].
  split; [|by destruct n]. by apply Hx.
Qed.
Hint Resolve pp_remove : good.
Lemma pp_sub_weight s st w : good s → pp (sub_weight s st w).
Proof. intros Hs. unfold sub_weight. pp. Qed.
Lemma pp_add_weight s st w : good s → pp (add_weight s st w).
Proof. intros Hs. unfold add_weight. pp. Qed.
Lemma pp_dec_num s st : good s → pp (dec_num s st).
Proof. intros Hs. unfold dec_num. pp. Qed.
Lemma pp_dec_nnr s : good s → pp (dec_nnr s).
Proof. intros Hs. unfold dec_nnr. pp. Qed.
Hint Resolve pp_sub_weight pp_add_weight pp_dec_num pp_dec_nnr : good.
Lemma good_tremove m t : good m → good (tremove m t).
Proof. intros Hm p Hp. simpl in Hp. apply elem_of_list_filter in Hp as [_ Hp]. by apply Hm. Qed.
Lemma pp_entry_at s t : good s → pp (entry_at s t).
Proof. intros Hs. unfold entry_at. pp. Qed.
Hint Resolve good_tremove pp_entry_at : good.
Lemma rehash_good s (l l' : list (N * nat)) : good s → rehash l (hasher s) = Ok l' → ∀ p, p ∈ l' → H p.1.
Proof.
  intros Hs. revert l'. induction l as [|[h t] l IH]; intros l'; simpl; [intros [= <-]; set_solver|]. unfold hasher at 1.
  destruct (entry_at s t) as [e|] eqn:E; simpl; [|done]. destruct (rehash l (hasher s)) as [r|]; simpl; [|done]. intros [= <-] p Hp.
  apply elem_of_cons in Hp as [->|Hp]; [|by eapply IH]. simpl. by apply (pp_entry_at s t Hs).
Qed.
Lemma pp_map_insert s h t : good s → H h → pp (map_insert s h t).
Proof.
  intros Hs Hh. unfold map_insert. apply pp_bind; [|intros m _ Hm; apply pp_ok; auto with good nocore]. intros m. unfold tinsert.
  destruct (if grows P (sh_map s) then _ else _) as [ps|] eqn:E; simpl; [|done]. intros [= <-] p Hp. simpl in Hp.
  apply elem_of_cons in Hp as [->|Hp]; [done|]. destruct (grows P (sh_map s)); [by eapply rehash_good|]. injection E as <-. by apply Hs.
Qed.
Lemma pp_reserve s : good s → pp (sh_reserve s).
Proof.
  intros Hs. unfold sh_reserve. apply pp_bind; [|intros m _ Hm; apply pp_ok; auto with good nocore]. intros m. unfold treserve.
  destruct (if grows P (sh_map s) then _ else _) as [ps|] eqn:E; simpl; [|done]. intros [= <-] p Hp. simpl in Hp.
  destruct (grows P (sh_map s)); [by eapply rehash_good|]. injection E as <-. by apply Hs.
Qed.
Lemma pp_map_remove s h t : good s → pp (map_remove s h t).
Proof. intros Hs. unfold map_remove. pp. Qed.
Lemma pp_remove_placeholder s p : good s → pp (remove_placeholder s p).
Proof. intros Hs. unfold remove_placeholder. pp. Qed.
Hint Resolve pp_map_insert pp_reserve pp_map_remove pp_remove_placeholder : good.
Lemma pp_change s i a b : good s → pp (cold_change_weight s i a b).
Proof. intros Hs. unfold cold_change_weight. pp. Qed.
Hint Resolve pp_change : good.
Lemma pp_rdrop s i w : good s → pp (refmut_drop s i w).
Proof. intros Hs. unfold refmut_drop. pp. Qed.
Lemma pp_removei s h i : good s → pp (remove_internal s h i).
Proof. intros Hs. unfold remove_internal. pp. Qed.
Hint Resolve pp_rdrop pp_removei : good.
Lemma pp_sremove s h k : good s → pp (sh_remove s h k).
Proof. intros Hs. unfold sh_remove. pp. Qed.
Lemma pp_rremove xs s : good s → pp (retain_remove s xs).
Proof. revert s. induction xs as [|[i h] xs IH]; intros s Hs; simpl; pp. Qed.
Lemma pp_aghost s : good s → pp (advance_ghost s).
Proof. intros Hs. unfold advance_ghost. pp. Qed.
Hint Resolve pp_sremove pp_rremove pp_aghost : good.
Lemma good_resident r : H (hash P (r_key r)) → good (Resident (P:=P) r).
Proof. done. Qed.
Lemma get_good s i r n : good s → slab_get (sh_ents s) i = Some (Resident r, n) → H (hash P (r_key r)).
Proof. intros [He _] E. pose proof (good_get _ i He) as Hg. rewrite E in Hg. apply Hg. Qed.
Lemma pp_hevict s l i r : good s → H (hash P (r_key r)) → pp (hot_evict s l i r).
Proof. intros Hs Hr. unfold hot_evict. pp. Qed.
Hint Resolve pp_hevict : good.
Hint Extern 1 (good (Resident _)) => match goal with
  | Hg : good (Resident _) |- _ => exact Hg
  | Hg : good (Resident _) |- good (Resident (if ?b then _ else _)) => destruct b; exact Hg
  | r : resident, Hg : good ?r |- good (Resident (if ?b then _ else ?r)) => destruct b; exact Hg
  end : good.
Hint Extern 1 (H (hash P (r_key _))) => match goal with Hg : good (Resident _) |- _ => exact Hg end : good.
Lemma pp_ahl n s l i u : good s → pp (advance_hot_loop n s l i u).
Proof. revert s i u. induction n as [|n IH]; intros s i u Hs; cbn [advance_hot_loop]; pp. Qed.
Hint Resolve pp_ahl : good.
Lemma pp_ahot s l : good s → pp (advance_hot s l).
Proof. intros Hs. unfold advance_hot. pp. Qed.
Hint Resolve pp_ahot : good.
Lemma pp_trim n s l : good s → pp (trim_hot n s l).
Proof. revert s l. induction n as [|n IH]; intros s l Hs; cbn [trim_hot]; pp. Qed.
Hint Resolve pp_trim : good.
Lemma pp_promote s l i r : good s → H (hash P (r_key r)) → pp (cold_promote s l i r).
Proof. intros Hs Hr. unfold cold_promote. pp. Qed.
Lemma pp_cevict s l i r : good s → H (hash P (r_key r)) → pp (cold_evict s l i r).
Proof. intros Hs Hr. unfold cold_evict. pp. Qed.
Hint Resolve pp_promote pp_cevict : good.
Lemma pp_acl n s l i : good s → pp (advance_cold_loop n s l i).
Proof. revert s i. induction n as [|n IH]; intros s i Hs; cbn [advance_cold_loop]; pp. Qed.
Hint Resolve pp_acl : good.
Lemma pp_acold s l : good s → pp (advance_cold s l).
Proof. intros Hs. unfold advance_cold. pp. Qed.
Hint Resolve pp_acold : good.
Lemma pp_eloop n s l x : good s → pp (evict_loop n s l x).
Proof. revert s l. induction n as [|n IH]; intros s l Hs; cbn [evict_loop]; pp. Qed.
Hint Resolve pp_eloop : good.
Lemma pp_evict s l x : good s → pp (evict_until s l x).
Proof. intros Hs. unfold evict_until. pp. Qed.
Lemma pp_link_back s st i : good s → pp (link_back s st i).
Proof. intros Hs. unfold link_back. pp. Qed.
Hint Resolve pp_evict pp_link_back : good.
Lemma pp_existing s l i k v w st : good s → H (hash P k) → pp (insert_existing s l i k v w st).
Proof. intros Hs Hk. unfold insert_existing. pp. Qed.
Lemma pp_sres s h k : good s → pp (search_resident s h k).
Proof. intros Hs. unfold search_resident. pp. change (good (n, r)). pp. Qed.
Hint Resolve pp_sres : good.
Lemma pp_over s l h k v st : good s → pp (handle_insert_overweight s l h k v st).
Proof. intros Hs. unfold handle_insert_overweight. pp. Qed.
Hint Resolve pp_existing pp_over : good.
Lemma pp_sinsert s l k v st : good s → H (hash P k) → pp (sh_insert s l (hash P k) k v st).
Proof. intros Hs Hk. unfold sh_insert. pp. Qed.
Hint Resolve pp_sinsert : good.
Hint Extern 1 (good (Placeholder _)) => assumption : good.
Lemma pp_upsert s k : good s → H (hash P k) → pp (upsert_placeholder s (hash P k) k).
Proof. intros Hs Hk. unfold upsert_placeholder. pp. Qed.
Hint Resolve pp_upsert : good.
Lemma items_links (es : slab entry) i x p n : at_ es i = Ok x → map item (ents (Slab.upd es i (set_links x p n))) = map item (ents es).
Proof.
  unfold at_. destruct (ents es !! i) as [y|] eqn:E; simpl; [|done]. intros [= ->]. rewrite !list_fmap_insert. simpl.
  apply list_insert_id. by rewrite list_lookup_fmap, E.
Qed.
Lemma items_unlink (es es' : slab entry) i o : slab_unlink es i = Ok (es', o) → map item (ents es') = map item (ents es).
Proof.
  unfold slab_unlink. destruct (at_ es i) as [x|] eqn:E1; cbn [rbind]; [|done]. destruct (assert _); cbn [rbind]; [|done].
  destruct (bool_decide _); [destruct (assert _); cbn [rbind]; [|done]; by intros [= <- <-]|].
  destruct (at_ _ (nxt x)) as [y|] eqn:E2; cbn [rbind]; [|done]. destruct (assert _); cbn [rbind]; [|done]. destruct (assert _); cbn [rbind]; [|done].
  destruct (at_ _ (prv x)) as [z|] eqn:E3; cbn [rbind]; [|done]. destruct (assert _); cbn [rbind]; [|done]. destruct (assert _); cbn [rbind]; [|done].
  intros [= <- <-]. by rewrite (items_links _ _ _ _ _ E3), (items_links _ _ _ _ _ E2), (items_links _ _ _ _ _ E1).
Qed.
Lemma remove_set_good (es es' : slab entry) i e0 e n o : good es → slab_get es i = Some (e, n) →
  slab_remove (slab_set es i e0) i = Ok (es', o) → good es'.
Proof.
  intros He Hg. unfold slab_get in Hg. destruct (ents es !! i) as [x|] eqn:E; [|done].
  assert (slab_set es i e0 = Slab.upd es i (set_item x (Some e0))) as Hset by (unfold slab_set; by rewrite E).
  unfold slab_remove. destruct (slab_unlink (slab_set es i e0) i) as [[es1 nx]|] eqn:Eu; cbn [rbind]; [|done].
  apply items_unlink in Eu. rewrite Hset in Eu. simpl in Eu. rewrite list_fmap_insert in Eu. simpl in Eu.
  assert (ents es1 !! i ≫= item = Some e0) as Hi.
  { assert (map item (ents es1) !! i = Some (Some e0)) as Hl.
    { rewrite Eu. apply list_lookup_insert. rewrite fmap_length. by eapply lookup_lt_Some. }
    rewrite list_lookup_fmap in Hl. destruct (ents es1 !! i); simpl in *; [by injection Hl|done]. }
  unfold at_. destruct (ents es1 !! i) as [y|] eqn:Ey; cbn [unwrap rbind]; [|done]. simpl in Hi. rewrite Hi. intros [= <- <-].
  intros z Hz e' He'. simpl in Hz. apply elem_of_list_lookup in Hz as (j & Hj).
  apply list_lookup_insert_Some in Hj as [(<- & <- & _)|(Hne & Hj)]; [done|].
  assert (map item (ents es) !! j = Some (Some e')) as Hl.
  { transitivity (map item (ents es1) !! j); [|rewrite list_lookup_fmap, Hj; simpl; by rewrite He'].
    rewrite Eu. symmetry. by apply list_lookup_insert_ne. }
  rewrite list_lookup_fmap in Hl. destruct (ents es !! j) as [w|] eqn:Ew; [|done]. simpl in Hl. injection Hl as Hl.
  eapply He; [|exact Hl]. by eapply elem_of_list_lookup_2.
Qed.
Lemma set_entry_twice s i e e' : set_entry (set_entry s i e) i e' = set_entry s i e'.
Proof.
  unfold set_entry, set_ents, slab_set. simpl. destruct (ents (sh_ents s) !! i) as [x|] eqn:E; [|by rewrite E].
  simpl. rewrite list_lookup_insert by by eapply lookup_lt_Some. unfold Slab.upd. simpl. by rewrite list_insert_insert.
Qed.
Lemma pp_rplace s l p b v : good s → pp (replace_placeholder s l p b v).
Proof.
  intros Hs. unfold replace_placeholder. destruct (slab_get (sh_ents s) (ph_idx p)) as [[[r|q|g] n]|] eqn:Eg; [pp| |pp|pp].
  destruct (same_as _ _); [|pp]. cbv zeta. assert (H (hash P (p_key q))) as Hq.
  { pose proof (good_get _ (ph_idx p) (good_ents s Hs)) as Hg. rewrite Eg in Hg. apply Hg. }
  destruct (if _ && _ then _ else _) as [[[l1 v1] w1] [|]].
  - apply pp_bind; [|pp]. unfold handle_overweight_replace_placeholder. intros [s' l'].
    destruct (slab_remove _ _) as [[es o]|] eqn:Er; cbn [rbind]; [|done]. destruct (map_remove _ _ _) as [s1|] eqn:Em; cbn [rbind]; [|done].
    intros [= <- <-]. split; [|done]. cbn [fst]. eapply pp_map_remove; [|exact Em]. split; [|by apply Hs]. simpl in Er.
    cbn [set_ents sh_ents]. eapply remove_set_good; [by apply good_ents|exact Eg|exact Er].
  - apply pp_bind; [pp|intros a1 _ _]. apply pp_bind; [pp|intros a2 _ _]. rewrite set_entry_twice. pp.
Qed.
Hint Resolve pp_rplace : good.
Lemma pp_sget s h k : good s → pp (sh_get s h k).
Proof. intros Hs. unfold sh_get. pp. Qed.
Lemma pp_sget_mut s h k : good s → pp (sh_get_mut s h k).
Proof. intros Hs. unfold sh_get_mut. pp. Qed.
Lemma pp_write s i f : good s → pp (refmut_write s i f).
Proof.
  intros Hs. unfold refmut_write. destruct (slab_get _ i) as [[[r|q|g] n]|] eqn:E; [|pp..]. apply pp_ok.
  apply (get_good _ _ _ _ Hs) in E. pp.
Qed.
Hint Resolve pp_sget pp_sget_mut pp_write : good.
Lemma pp_use_refmut s o f : good s → pp (use_refmut s o f).
Proof. intros Hs. unfold use_refmut. pp. Qed.
Lemma pp_fill s rs p v wl r c : good s → pp (u_fill s rs p v wl r c).
Proof. intros Hs. unfold u_fill. pp. Qed.
Hint Resolve pp_use_refmut pp_fill : good.
Lemma pp_guard s rs p g : good s → pp (use_guard s rs p g).
Proof. intros Hs. unfold use_guard. pp. Qed.
Hint Resolve pp_guard : good.
Lemma good_drain s : good (sh_drain s).1.
Proof. split; simpl; intros ? Hp; by apply elem_of_nil in Hp. Qed.
Lemma good_new a b c : good (sh_new a b c : shard).
Proof. split; simpl; intros ? Hp; by apply elem_of_nil in Hp. Qed.
Lemma pp_exec s c : good s → (∀ k, offers c k → H (hash P k)) → pp (exec s c).
Proof.
  intros Hs Hk. destruct c; simpl; unfold u_get, u_get_mut, u_peek_mut, u_remove, u_replace, u_insert, sh_retain, u_get_or_insert,
    u_get_mut_or_insert, u_ref_or_guard, u_mut_or_guard; try (specialize (Hk _ eq_refl)); pp.
  - apply good_drain.
  - apply (good_drain s).
Qed.
Lemma pp_empties s c : empties c → pp (exec s c).
Proof. destruct c; try done; intros _ [s' o]; intros [= <- <-]; (split; [apply (good_drain s)|done]). Qed.
Lemma good_run s h s' os : good s → (∀ c k, c ∈ h → offers c k → H (hash P k)) → run s h = Ok (s', os) → good s'.
Proof.
  revert s os. induction h as [|c h IH]; intros s os Hs Hk; simpl; [by intros [= <- _]|].
  destruct (exec s c) as [[s1 o]|] eqn:E; cbn [rbind]; [|done]. destruct (run s1 h) as [[s2 os2]|] eqn:Er; cbn [rbind]; [|done].
  intros [= <- _]. eapply IH; [| |exact Er]; [|set_solver]. by apply (pp_exec s c Hs (λ k, Hk c k (elem_of_list_here _ _)) _ E).
Qed.

(* ---- the sync cache ---- *)
Lemma pp_xexec s x : good s → match x with XCmd m => ∀ k, offers m k → H (hash P k) | XJoin k => H (hash P k) | _ => True end → pp (xexec s x).
Proof. intros Hs Hx. destruct x; simpl; [apply pp_bind; [by apply pp_exec|pp]|pp..]. Qed.
Definition sgood (c : scache P) : Prop := ∀ s, s ∈ sc_shards c → good s.
Definition spp {A} (m : res (scache P * A)) : Prop := ∀ c a, m = Ok (c, a) → sgood c.
Lemma spp_bind {A C} (m : res (scache P * A)) (k : scache P * A → res (scache P * C)) :
  spp m → (∀ c a, sgood c → spp (k (c, a))) → spp (rbind m k).
Proof. intros Hm Hk. destruct m as [[c a]|f]; simpl; [|by intros ??]. apply Hk. by eapply Hm. Qed.
Lemma spp_ok {A} c (a : A) : sgood c → spp (Ok (c, a)).
Proof. by intros ? ? ? [= <- _]. Qed.
Lemma sgood_with c j s : sgood c → good s → sgood (with_shard c j s).
Proof.
  intros Hc Hs s1 Hin. apply elem_of_list_lookup in Hin as (i & Hi). simpl in Hi.
  apply list_lookup_insert_Some in Hi as [(_ & -> & _)|(_ & Hi)]; [done|]. apply Hc. by eapply elem_of_list_lookup_2.
Qed.
Definition xoffers (x : sect P) : Prop :=
  match x with XCmd m => ∀ k, offers m k → H (hash P k) | XJoin k => H (hash P k) | _ => True end.
Lemma spp_on_shard c j x : sgood c → xoffers x → spp (on_shard c j x).
Proof.
  intros Hc Hx. unfold on_shard. destruct (sc_shards c !! j) as [s|] eqn:E; cbn [unwrap rbind]; [|by intros ??].
  destruct (xexec s x) as [[s' r]|] eqn:Ex; cbn [rbind]; [|by intros ??]. apply spp_ok. apply sgood_with; [done|].
  assert (good s) as Hs by (apply Hc; by eapply elem_of_list_lookup_2). by apply (pp_xexec s x Hs Hx _ Ex).
Qed.
Lemma spp_on_key c k x : sgood c → xoffers x → spp (on_key c k x).
Proof. intros Hc Hx. unfold on_key. destruct (shard_for c k) as [j|]; cbn [unwrap rbind]; [by apply spp_on_shard|by intros ??]. Qed.
Lemma sgood_on_shards c js x c' : sgood c → xoffers x → on_shards c js x = Ok c' → sgood c'.
Proof.
  intros Hc Hx. revert c Hc. induction js as [|j js IH]; intros c Hc; simpl; [by intros [= <-]|].
  destruct (on_shard c j x) as [[c1 r]|] eqn:E; cbn [rbind]; [|done]. apply IH. by eapply (spp_on_shard c j x).
Qed.
Lemma spp_guard c k rs p g : sgood c → spp (s_use_guard c k rs p g).
Proof.
  intros Hc. unfold s_use_guard. destruct g; (apply spp_bind; [by apply spp_on_key; [|exact I]|]); intros c1 r Hc1; simpl; [|by apply spp_ok].
  destruct r; try (by intros ??). by apply spp_ok.
Qed.
Lemma spp_value c k : sgood c → H (hash P k) → spp (s_value_or_guard c k).
Proof.
  intros Hc Hk. unfold s_value_or_guard. apply spp_bind; [apply spp_on_key; [done|]; by intros ? []|]. intros c1 r Hc1. cbv beta iota.
  assert (spp (let! (c, r) := on_key c1 k (XJoin k) in
      match r with XHit v => Ok (c, inl v) | XNew p => Ok (c, inr p) | _ => Fail NoFuel end : res (scache P * (V P + plh)))) as Hj.
  { apply spp_bind; [by apply spp_on_key|]. intros c2 r2 Hc2. destruct r2; try (by intros ??); by apply spp_ok. }
  destruct r as [[r lg cl st]| | | | |]; try (intros ? ? [=]; fail). destruct r as [| |[v|]| | | |]; try exact Hj. by apply spp_ok.
Qed.
Lemma spp_exec c m : sgood c → (∀ k, s_offers m k → H (hash P k)) → spp (sc_exec c m).
Proof.
  intros Hc Hk. destruct m as [k m|m|rs k g|rs k w]; cbn [sc_exec].
  - apply spp_bind; [by apply spp_on_key|]. intros c1 r Hc1. destruct r; try (by intros ??). by apply spp_ok.
  - unfold on_all. destruct (on_shards _ _ _) as [c1|] eqn:E; cbn [rbind]; [|by intros ??]. apply spp_ok. exact (sgood_on_shards _ _ (XCmd m) _ Hc Hk E).
  - apply spp_bind; [by apply spp_value; [|apply Hk]|]. intros c1 [v|p] Hc1; [by apply spp_ok|by apply spp_guard].
  - apply spp_bind; [by apply spp_value; [|apply Hk]|]. intros c1 [v|p] Hc1; [destruct w; by apply spp_ok|].
    destruct w as [v|]; (apply spp_bind; [by apply spp_guard|]); intros c2 o Hc2; by apply spp_ok.
Qed.
Lemma sgood_run c h c' os : sgood c → (∀ m k, m ∈ h → s_offers m k → H (hash P k)) → sc_run c h = Ok (c', os) → sgood c'.
Proof.
  revert c os. induction h as [|m h IH]; intros c os Hc Hk; simpl; [by intros [= <- _]|].
  destruct (sc_exec c m) as [[c1 o]|] eqn:E; cbn [rbind]; [|done]. destruct (sc_run c1 h) as [[c2 os2]|] eqn:Er; cbn [rbind]; [|done].
  intros [= <- _]. eapply IH; [| |exact Er]; [|set_solver]. by apply (spp_exec c m Hc (λ k, Hk m k (elem_of_list_here _ _)) _ _ E).
Qed.
Lemma sgood_fresh a b c n : sgood (sc_fresh a b c n).
Proof. intros s Hs. apply elem_of_replicate in Hs as [-> _]. apply good_new. Qed.
(* clearing every shard *)
Lemma sgood_clear c c' o : sc_exec c (SAll CClear) = Ok (c', o) → sgood c'.
Proof.
  cbn [sc_exec]. unfold on_all. destruct (on_shards _ _ _) as [c1|] eqn:E; cbn [rbind]; [|done]. intros [= <- _].
  assert (∀ n c0 i s, on_shards c0 (seq i n) (XCmd CClear) = Ok c1 → (∀ j s, j < i → sc_shards c0 !! j = Some s → good s) →
    length (sc_shards c0) = i + n → s ∈ sc_shards c1 → good s) as Hn.
  { induction n as [|n IH]; intros c0 i s; simpl.
    - intros [= <-] Hp Hl Hin. apply elem_of_list_lookup in Hin as (j & Hj). eapply Hp; [|exact Hj]. apply lookup_lt_Some in Hj. lia.
    - unfold on_shard at 1. destruct (sc_shards c0 !! i) as [s0|] eqn:E0; cbn [unwrap rbind xexec exec]; [|done].
      intros Ho Hp Hl. apply (IH _ _ _ Ho); [|simpl; rewrite insert_length; lia]. intros j s1 Hj Hs1. simpl in Hs1.
      apply list_lookup_insert_Some in Hs1 as [(_ & <- & _)|(Hne & Hs1)]; [apply (good_drain s0)|]. eapply Hp; [|exact Hs1]. lia. }
  intros s. eapply (Hn _ c 0); [exact E|lia|done].
Qed.
End hashes.

(* the hashes of the keys offered in a history *)
Lemma run_app {P : Params} {B : Build} (s s' : shard P) h1 h2 os : run s (h1 ++ h2) = Ok (s', os) →
  ∃ s1 os1 os2, run s h1 = Ok (s1, os1) ∧ run s1 h2 = Ok (s', os2).
Proof.
  revert s os. induction h1 as [|c h1 IH]; intros s os; simpl; [by eauto|]. destruct (exec s c) as [[s1 o]|]; cbn [rbind]; [|done].
  destruct (run s1 (h1 ++ h2)) as [[s2 os2]|] eqn:E; cbn [rbind]; [|done]. intros [= <- <-].
  destruct (IH _ _ E) as (s3 & os3 & os4 & -> & H2). cbn [rbind]. eauto.
Qed.
Lemma sc_run_app {P : Params} {B : Build} (c c' : scache P) h1 h2 os : sc_run c (h1 ++ h2) = Ok (c', os) →
  ∃ c1 os1 os2, sc_run c h1 = Ok (c1, os1) ∧ sc_run c1 h2 = Ok (c', os2).
Proof.
  revert c os. induction h1 as [|m h1 IH]; intros c os; simpl; [by eauto|]. destruct (sc_exec c m) as [[c1 o]|]; cbn [rbind]; [|done].
  destruct (sc_run c1 (h1 ++ h2)) as [[c2 os2]|] eqn:E; cbn [rbind]; [|done]. intros [= <- <-].
  destruct (IH _ _ E) as (s3 & os3 & os4 & -> & H2). cbn [rbind]. eauto.
Qed.
Lemma history_new {P : Params} {B : Build} b g cap (h1 h2 : list (cmd P)) s os (k : K P) :
  run (sh_new b g cap) (h1 ++ h2) = Ok (s, os) → (h1 = [] ∨ ∃ h0 c, h1 = h0 ++ [c] ∧ empties c) →
  (∀ c k', c ∈ h2 → offers c k' → hash P k' ≠ hash P k) → ∀ t, (hash P k, t) ∉ tpairs (sh_map s).
Proof.
  intros (s1 & os1 & os2 & H1 & H2)%run_app He Hk t Hin.
  assert (@good _ (good_shard (λ x, x ≠ hash P k)) s) as [_ Hg]; [|by destruct (Hg _ Hin)].
  eapply good_run; [|intros c k'; by apply Hk|exact H2].
  destruct He as [->|(h0 & c & -> & He)]; [simpl in H1; injection H1 as <- _; apply good_new|].
  apply run_app in H1 as (s3 & ? & ? & _ & H3). simpl in H3. destruct (exec s3 c) as [[s4 o]|] eqn:E; cbn [rbind] in H3; [|done].
  injection H3 as <- _. by apply (pp_empties (λ x, x ≠ hash P k) s3 c He _ E).
Qed.
Lemma s_history_new {P : Params} {B : Build} b g cap n (h1 h2 : list (scmd P)) c os (k : K P) :
  sc_run (sc_fresh b g cap n) (h1 ++ h2) = Ok (c, os) → (h1 = [] ∨ ∃ h0, h1 = h0 ++ [SAll CClear]) →
  (∀ m k', m ∈ h2 → s_offers m k' → hash P k' ≠ hash P k) → ∀ s t, s ∈ sc_shards c → (hash P k, t) ∉ tpairs (sh_map s).
Proof.
  intros (c1 & os1 & os2 & H1 & H2)%sc_run_app He Hk s t Hs Hin.
  assert (sgood (λ x, x ≠ hash P k) c) as Hc; [|by destruct (proj2 (Hc _ Hs) _ Hin)].
  eapply sgood_run; [|intros m k'; by apply Hk|exact H2].
  destruct He as [->|(h0 & ->)]; [simpl in H1; injection H1 as <- _; apply sgood_fresh|].
  apply sc_run_app in H1 as (s3 & ? & ? & _ & H3). cbn [sc_run] in H3. destruct (sc_exec s3 _) as [[s4 o]|] eqn:E; cbn [rbind] in H3; [|done].
  injection H3 as <- _. by apply (sgood_clear (λ x, x ≠ hash P k) s3 _ _ E).
Qed.
