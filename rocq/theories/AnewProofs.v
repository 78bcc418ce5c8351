(* What a cache does depends neither on its statistics, nor on how often its hash table was
   changed, nor on the identities of its placeholders: shifting all of them commutes with
   every function of the model. *)
From Verif Require Export Anew.

Section shift.
Context {P : Params} {B : Build} (de : nat) (did dh dm : N).
Context (OR : history_blind P).
Notation shard := (shard P). Notation entry := (entry P).
Implicit Types (s : shard) (l : lcs P) (es : slab entry) (e : entry).

Class Sh (A : Type) := shf : A → A.
Global Instance sh_plh : Sh plh := λ p, Plh (ph_hash p) (ph_idx p) (did + ph_id p).
Global Instance sh_entry : Sh entry := λ e,
  match e with Placeholder q => Placeholder (Pla (p_key q) (p_hot q) (shf (p_shared q))) | _ => e end.
Global Instance sh_table : Sh table := λ T, Table (tpairs T) (tepoch T + de).
Global Instance sh_prod A C `{Sh A, Sh C} : Sh (A * C) := λ p, (shf p.1, shf p.2).
Global Instance sh_option A `{Sh A} : Sh (option A) := λ o, match o with Some a => Some (shf a) | None => None end.
Global Instance sh_sum A C `{Sh A, Sh C} : Sh (A + C) := λ o, match o with inl a => inl (shf a) | inr c => inr (shf c) end.
Global Instance sh_node : Sh (snode entry) := λ x, SNode (shf (item x)) (nxt x) (prv x).
Global Instance sh_slab : Sh (slab entry) := λ es, Slab (map shf (ents es)) (next_free es).
Global Instance sh_shard : Sh shard := λ s,
  Shard (shf (sh_map s)) (shf (sh_ents s)) (sh_hot s) (sh_cold s) (sh_ghost_head s) (sh_target_hot s) (sh_capacity s)
    (sh_nnr s) (sh_cap_nr s) (dh + sh_hits s) (dm + sh_misses s) (did + sh_nph s).
Global Instance sh_any A : Sh A | 100 := λ a, a.

Definition rmap {A C} (f : A → C) (m : res A) : res C := match m with Ok a => Ok (f a) | Fail x => Fail x end.
Definition cm {A} `{Sh A} (m m' : res A) : Prop := m' = rmap shf m.
Lemma cm_bind {A C} `{Sh A, Sh C} (m m' : res A) (k k' : A → res C) :
  cm m m' → (∀ a, cm (k a) (k' (shf a))) → cm (rbind m k) (rbind m' k').
Proof. unfold cm. intros ->. destruct m; simpl; [auto|done]. Qed.
Lemma cm_same {A} (m : res A) : cm (H:=sh_any A) m m.
Proof. by destruct m. Qed.
Lemma cm_fail {A} `{Sh A} f : cm (Fail f : res A) (Fail f).
Proof. done. Qed.
Lemma cm_ok {A} `{Sh A} (a a' : A) : a' = shf a → cm (Ok a) (Ok a').
Proof. by intros ->. Qed.
Lemma cm_unwrap {A} `{Sh A} (o o' : option A) : o' = shf o → cm (unwrap o) (unwrap o').
Proof. intros ->. by destruct o. Qed.

(* the slab *)
Lemma shf_upd es i x : Slab.upd (shf es) i (shf x) = shf (Slab.upd es i x).
Proof. unfold Slab.upd, shf, sh_slab. simpl. f_equal. symmetry. apply list_fmap_insert. Qed.
Lemma shf_lookup es i : ents (shf es) !! i = shf (ents es !! i).
Proof. unfold shf at 1, sh_slab. simpl. rewrite list_lookup_fmap. by destruct (ents es !! i). Qed.
Lemma shf_live x : is_live (shf x) = is_live x.
Proof. unfold is_live. simpl. by destruct (item x). Qed.
Lemma cm_at es i : cm (at_ es i) (at_ (shf es) i).
Proof. apply cm_unwrap. apply shf_lookup. Qed.
Lemma shf_links x p n : set_links (shf x) p n = shf (set_links x p n).
Proof. done. Qed.
Lemma shf_get es i : slab_get (shf es) i = shf (slab_get es i).
Proof. unfold slab_get. rewrite shf_lookup. destruct (ents es !! i) as [x|]; simpl; [|done]. by destruct (item x). Qed.
Lemma shf_set es i e : slab_set (shf es) i (shf e) = shf (slab_set es i e).
Proof. unfold slab_set. rewrite shf_lookup. destruct (ents es !! i) as [x|]; [|done]. apply (shf_upd es i (set_item x (Some e))). Qed.
Lemma shf_nxt (x : snode entry) : nxt (shf x) = nxt x. Proof. done. Qed.
Lemma shf_prv (x : snode entry) : prv (shf x) = prv x. Proof. done. Qed.
Lemma shf_len es : length (ents (shf es)) = length (ents es). Proof. apply fmap_length. Qed.
Lemma cm_link es i h : cm (slab_link es i h) (slab_link (shf es) i h).
Proof.
  unfold slab_link. apply cm_bind.
  - destruct h as [th|]; [|done]. apply cm_bind; [apply cm_at|]. intros x. rewrite shf_live. apply cm_bind; [apply cm_same|intros _].
    rewrite shf_nxt, shf_prv. destruct (bool_decide _); [rewrite shf_links, shf_upd; done|].
    rewrite shf_links, shf_upd. apply cm_bind; [apply cm_at|]. intros y. rewrite shf_live. apply cm_bind; [apply cm_same|intros _].
    rewrite shf_nxt, shf_prv. apply cm_bind; [apply cm_same|intros _]. rewrite shf_links, shf_upd. done.
  - intros [[s1 p] n]. apply (cm_bind (at_ s1 i) (at_ (shf s1) i)); [apply cm_at|]. intros x. rewrite shf_live, shf_nxt, shf_prv.
    apply cm_bind; [apply cm_same|intros _]. apply cm_bind; [apply cm_same|intros _]. apply cm_bind; [apply cm_same|intros _].
    apply cm_ok. by rewrite shf_links, shf_upd.
Qed.
Lemma cm_unlink es i : cm (slab_unlink es i) (slab_unlink (shf es) i).
Proof.
  unfold slab_unlink. apply cm_bind; [apply cm_at|]. intros x. rewrite shf_live, shf_nxt, shf_prv. apply cm_bind; [apply cm_same|intros _].
  destruct (bool_decide _); [apply cm_bind; [apply cm_same|intros _]; done|]. cbv zeta. rewrite shf_links, shf_upd.
  apply cm_bind; [apply cm_at|]. intros y. rewrite shf_live, shf_nxt, shf_prv. apply cm_bind; [apply cm_same|intros _].
  apply cm_bind; [apply cm_same|intros _]. rewrite shf_links, shf_upd.
  apply cm_bind; [apply cm_at|]. intros z. rewrite shf_live, shf_nxt, shf_prv. apply cm_bind; [apply cm_same|intros _].
  apply cm_bind; [apply cm_same|intros _]. rewrite shf_links, shf_upd. done.
Qed.
Lemma shf_pair {A C} `{Sh A, Sh C} (a a' : A) (c c' : C) : a' = shf a → c' = shf c → (a', c') = shf (a, c).
Proof. by intros -> ->. Qed.
Lemma shf_insert es i x m : Slab (<[i := shf x]> (ents (shf es))) m = shf (Slab (<[i := x]> (ents es)) m).
Proof. unfold shf at 2 3, sh_slab. simpl. f_equal. symmetry. apply list_fmap_insert. Qed.
Lemma shf_snoc es x m : Slab (ents (shf es) ++ [shf x]) m = shf (Slab (ents es ++ [x]) m).
Proof. unfold shf at 1 3, sh_slab. simpl. f_equal. symmetry. apply map_app. Qed.
Lemma cm_remove es i : cm (slab_remove es i) (slab_remove (shf es) i).
Proof.
  unfold slab_remove. apply cm_bind; [apply cm_unlink|]. intros [s1 n]. apply (cm_bind (at_ s1 i) (at_ (shf s1) i)); [apply cm_at|]. intros x.
  simpl. destruct (item x) as [e|]; simpl; [|done]. apply cm_ok. apply shf_pair; [|by destruct n].
  apply (shf_insert s1 i (SNode None (next_free s1) (prv x))).
Qed.
Lemma cm_insert es e : cm (slab_insert es e) (slab_insert (shf es) (shf e)).
Proof.
  unfold slab_insert. rewrite shf_lookup. cbn [next_free shf sh_slab]. destruct (ents es !! next_free es) as [x|]; cbn [shf sh_option].
  - rewrite shf_live. apply cm_bind; [apply cm_same|intros _]. apply cm_ok. apply shf_pair; [|done].
    apply (shf_insert es _ (SNode (Some e) _ _)).
  - rewrite shf_len. apply cm_bind; [apply cm_same|intros _]. destruct (_ =? _)%N; [done|]. apply cm_ok. apply shf_pair; [|done].
    apply (shf_snoc es (SNode (Some e) _ _)).
Qed.

(* the fields *)
Lemma shf_ents s : sh_ents (shf s) = shf (sh_ents s). Proof. done. Qed.
Lemma shf_map s : sh_map (shf s) = shf (sh_map s). Proof. done. Qed.
Lemma shf_hot s : sh_hot (shf s) = sh_hot s. Proof. done. Qed.
Lemma shf_cold s : sh_cold (shf s) = sh_cold s. Proof. done. Qed.
Lemma shf_ghost s : sh_ghost_head (shf s) = sh_ghost_head s. Proof. done. Qed.
Lemma shf_target s : sh_target_hot (shf s) = sh_target_hot s. Proof. done. Qed.
Lemma shf_cap s : sh_capacity (shf s) = sh_capacity s. Proof. done. Qed.
Lemma shf_nnr s : sh_nnr (shf s) = sh_nnr s. Proof. done. Qed.
Lemma shf_capnr s : sh_cap_nr (shf s) = sh_cap_nr s. Proof. done. Qed.
Lemma shf_acct s st : sh_acct (shf s) st = sh_acct s st. Proof. by destruct st. Qed.
Lemma shf_set_ents s es : set_ents (shf s) (shf es) = shf (set_ents s es). Proof. done. Qed.
Lemma shf_set_map s m : set_map (shf s) (shf m) = shf (set_map s m). Proof. done. Qed.
Lemma shf_set_acct s st a : set_acct (shf s) st a = shf (set_acct s st a). Proof. by destruct st. Qed.
Lemma shf_set_head s st a : set_head (shf s) st a = shf (set_head s st a). Proof. by destruct st. Qed.
Lemma shf_inc s st : inc_num (shf s) st = shf (inc_num s st). Proof. by destruct st. Qed.
Lemma shf_set_ghost s a : set_ghost_head (shf s) a = shf (set_ghost_head s a). Proof. done. Qed.
Lemma shf_set_nnr s a : set_nnr (shf s) a = shf (set_nnr s a). Proof. done. Qed.
Lemma shf_hit s : record_hit (shf s) = shf (record_hit s).
Proof. unfold record_hit, set_hits, shf, sh_shard. simpl. f_equal. symmetry. apply N.add_assoc. Qed.
Lemma shf_miss s : record_miss (shf s) = shf (record_miss s).
Proof. unfold record_miss, set_misses, shf, sh_shard. simpl. f_equal. symmetry. apply N.add_assoc. Qed.
Lemma shf_if (b : bool) s s' : (if b then shf s else shf s') = shf (if b then s else s'). Proof. by destruct b. Qed.
Lemma shf_tremove T i : tremove (shf T) i = shf (tremove T i). Proof. done. Qed.
Lemma shf_set_res s i r : set_entry (shf s) i (Resident r) = shf (set_entry s i (Resident r)).
Proof. unfold set_entry. rewrite <-shf_set_ents, <-shf_set. done. Qed.
Lemma shf_set_ghost_e s i h : set_entry (shf s) i (Ghost h) = shf (set_entry s i (Ghost h)).
Proof. unfold set_entry. rewrite <-shf_set_ents, <-shf_set. done. Qed.
Lemma shf_probe T h : probe P (shf T) h = probe P T h. Proof. by apply OR. Qed.
Lemma shf_titer T : titer P (shf T) = titer P T. Proof. by apply OR. Qed.
Lemma shf_grows T : grows P (shf T) = grows P T. Proof. by apply OR. Qed.
Lemma shf_nothing (o : option nat) : shf o = o. Proof. by destruct o. Qed.
Lemma shf_nothing2 (o : option (nat * N)) : shf o = o. Proof. by destruct o as [[??]|]. Qed.
Lemma shf_nothing3 (o : option (nat * resident P)) : shf o = o. Proof. by destruct o as [[??]|]. Qed.
Lemma shf_nothing4 (o : option (K P * V P)) : shf o = o. Proof. by destruct o as [[??]|]. Qed.
Lemma shf_nothing5 (o : option (V P)) : shf o = o. Proof. by destruct o. Qed.
Lemma shf_N (a : N) : shf a = a. Proof. done. Qed.
Lemma shf_nat (a : nat) : shf a = a. Proof. done. Qed.
Lemma shf_bool (a : bool) : shf a = a. Proof. done. Qed.
Lemma shf_V (a : V P) : shf a = a. Proof. done. Qed.
Lemma shf_res (a : resident P) : shf a = a. Proof. done. Qed.
Lemma shf_lcs l : shf l = l. Proof. done. Qed.
Hint Rewrite shf_nothing4 shf_nothing5 shf_N shf_nat shf_bool shf_V shf_res shf_lcs shf_nothing shf_nothing2 shf_nothing3 shf_ents shf_map shf_hot shf_cold shf_ghost shf_target shf_cap shf_nnr shf_capnr shf_acct shf_set_ents shf_set_map shf_set_acct
  shf_set_head shf_inc shf_set_ghost shf_set_nnr shf_hit shf_miss shf_if shf_tremove shf_set_res shf_set_ghost_e shf_probe shf_titer shf_grows
  shf_get shf_len shf_live shf_nxt shf_prv shf_links shf_upd : shf.
Create HintDb cm discriminated.
Hint Resolve cm_same cm_fail cm_at cm_link cm_unlink cm_remove cm_insert : cm.
Ltac cm := repeat first
  [ progress intros
  | progress autorewrite with shf
  | match goal with |- ?x = ?x => reflexivity end
  | solve [auto with cm nocore]
  | match goal with |- cm (Ok _) (Ok _) => apply cm_ok; try reflexivity; repeat (apply shf_pair; try reflexivity) end
  | match goal with |- cm (unwrap _) (unwrap _) => apply cm_unwrap; autorewrite with shf; reflexivity end
  | apply cm_bind
  | match goal with |- cm (match ?x with _ => _ end) _ => is_var x; destruct x; cbn [shf sh_option sh_prod sh_entry sh_any sh_sum fst snd p_key p_hot p_shared] end
  | match goal with |- cm _ (match shf ?x with _ => _ end) => destruct x; cbn [shf sh_option sh_prod sh_entry sh_any sh_sum fst snd p_key p_hot p_shared] end
  | match goal with |- cm (match ?x with _ => _ end) _ => destruct x eqn:?; cbn [shf sh_option sh_prod sh_entry sh_any sh_sum fst snd p_key p_hot p_shared] end ].
Lemma cm_sub_weight s st w : cm (sub_weight s st w) (sub_weight (shf s) st w).
Proof. unfold sub_weight. cm. Qed.
Lemma cm_add_weight s st w : cm (add_weight s st w) (add_weight (shf s) st w).
Proof. unfold add_weight. cm. Qed.
Lemma cm_dec_num s st : cm (dec_num s st) (dec_num (shf s) st).
Proof. unfold dec_num. cm. Qed.
Lemma cm_dec_nnr s : cm (dec_nnr s) (dec_nnr (shf s)).
Proof. unfold dec_nnr. cm. Qed.
Lemma cm_entry_at s t : cm (entry_at s t) (entry_at (shf s) t).
Proof. unfold entry_at. cm. Qed.
Hint Resolve cm_sub_weight cm_add_weight cm_dec_num cm_dec_nnr cm_entry_at : cm.
Lemma cm_scan xs f f' : (∀ i, cm (f i) (f' i)) → cm (scan xs f) (scan xs f').
Proof. intros Hf. induction xs as [|t xs IH]; simpl; [done|]. apply cm_bind; [apply Hf|]. intros [|]; [done|exact IH]. Qed.
Lemma cm_tfind T h f f' : (∀ i, cm (f i) (f' i)) → cm (tfind P T h f) (tfind P (shf T) h f').
Proof. intros Hf. unfold tfind. rewrite shf_probe. by apply cm_scan. Qed.
Lemma shf_same p q : same_as (P:=P) (shf p) (shf q) = same_as (P:=P) p q.
Proof. unfold same_as. destruct (ptr_ids P); [|done]. simpl. apply bool_decide_ext. lia. Qed.
Lemma shf_hash_of e : hash_of_entry (shf e) = hash_of_entry e. Proof. by destruct e. Qed.
Lemma cm_hasher s t : cm (hasher s t) (hasher (shf s) t).
Proof. unfold hasher. apply cm_bind; [apply cm_entry_at|]. intros e. by rewrite shf_hash_of. Qed.
Lemma cm_rehash s (xs : list (N * nat)) : rehash xs (hasher (shf s)) = rehash xs (hasher s).
Proof.
  induction xs as [|[h t] xs IH]; simpl; [done|]. rewrite IH. pose proof (cm_hasher s t) as Hc. unfold cm in Hc. rewrite Hc.
  by destruct (hasher s t).
Qed.
Lemma cm_map_insert s h t : cm (map_insert s h t) (map_insert (shf s) h t).
Proof.
  unfold map_insert, tinsert. autorewrite with shf. cbn [tpairs shf sh_table]. rewrite cm_rehash.
  apply (cm_bind (A:=table)); [|intros m; by rewrite shf_set_map].
  destruct (if grows P (sh_map s) then _ else _) as [ps|]; done.
Qed.
Lemma cm_reserve s : cm (sh_reserve s) (sh_reserve (shf s)).
Proof.
  unfold sh_reserve, treserve. autorewrite with shf. cbn [tpairs shf sh_table]. rewrite cm_rehash.
  apply (cm_bind (A:=table)); [|intros m; by rewrite shf_set_map].
  destruct (if grows P (sh_map s) then _ else _) as [ps|]; done.
Qed.
Lemma cm_map_remove s h t : cm (map_remove s h t) (map_remove (shf s) h t).
Proof. unfold map_remove. autorewrite with shf. apply cm_bind; [apply cm_tfind; cm|]. cm. Qed.
Lemma cm_remove_placeholder s p : cm (remove_placeholder s p) (remove_placeholder (shf s) (shf p)).
Proof.
  unfold remove_placeholder. autorewrite with shf. apply cm_bind; [|cm]. apply cm_tfind. intros i.
  cbn [ph_idx shf sh_plh]. destruct (bool_decide _); [cm|]. apply cm_bind; [cm|]. intros [r|q|h]; cbn [shf sh_entry p_shared]; try cm.
  change (Plh (ph_hash p) (ph_idx p) (did + ph_id p)) with (shf p). by rewrite shf_same.
Qed.
Hint Resolve cm_hasher cm_map_insert cm_reserve cm_map_remove cm_remove_placeholder : cm.
Lemma cm_change s i a b : cm (cold_change_weight s i a b) (cold_change_weight (shf s) i a b).
Proof. unfold cold_change_weight. cm. Qed.
Hint Resolve cm_change : cm.
Lemma cm_search_loop s h k xs o : cm (search_loop s h k xs o) (search_loop (shf s) h k xs o).
Proof. revert o. induction xs as [|i xs IH]; intros o; cbn [search_loop]; cm. Qed.
Lemma cm_search s h k : cm (search s h k) (search (shf s) h k).
Proof. unfold search. autorewrite with shf. apply cm_search_loop. Qed.
Lemma cm_res_match s k i : cm (res_match s k i) (res_match (shf s) k i).
Proof. unfold res_match. cm. Qed.
Lemma cm_sres s h k : cm (search_resident s h k) (search_resident (shf s) h k).
Proof. unfold search_resident. autorewrite with shf. apply cm_bind; [apply cm_tfind, cm_res_match|]. cm. Qed.
Lemma cm_contains s h k : cm (sh_contains s h k) (sh_contains (shf s) h k).
Proof. unfold sh_contains. autorewrite with shf. apply cm_bind; [apply cm_tfind, cm_res_match|]. intros o. by rewrite shf_nothing. Qed.
Hint Resolve cm_search cm_sres cm_contains : cm.
Lemma cm_get s h k : cm (sh_get s h k) (sh_get (shf s) h k).
Proof. unfold sh_get. cm. Qed.
Lemma cm_get_mut s h k : cm (sh_get_mut s h k) (sh_get_mut (shf s) h k).
Proof. unfold sh_get_mut. cm. Qed.
Lemma cm_peek s h k : cm (sh_peek s h k) (sh_peek (shf s) h k).
Proof. unfold sh_peek. apply cm_bind; [cm|]. by intros [[??]|]. Qed.
Lemma shf_peek_token s t : peek_token (shf s) t = peek_token s t.
Proof. unfold peek_token. rewrite shf_ents, shf_get. by destruct (slab_get _ t) as [[[]?]|]. Qed.
Lemma shf_peek_token_mut s t : peek_token_mut (shf s) t = peek_token_mut s t.
Proof. unfold peek_token_mut. rewrite shf_ents, shf_get. by destruct (slab_get _ t) as [[[]?]|]. Qed.
Lemma cm_peek_mut s h k : cm (sh_peek_mut s h k) (sh_peek_mut (shf s) h k).
Proof. unfold sh_peek_mut. apply cm_bind; [cm|]. intros o. rewrite shf_nothing3. apply cm_ok. rewrite shf_nothing2. destruct o as [[i ?]|]; [|done]. apply shf_peek_token_mut. Qed.
Lemma cm_write s i f : cm (refmut_write s i f) (refmut_write (shf s) i f).
Proof. unfold refmut_write. cm. Qed.
Lemma cm_drop s i w : cm (refmut_drop s i w) (refmut_drop (shf s) i w).
Proof. unfold refmut_drop. cm. Qed.
Lemma cm_removei s h i : cm (remove_internal s h i) (remove_internal (shf s) h i).
Proof. unfold remove_internal. cm. Qed.
Hint Resolve cm_get cm_get_mut cm_peek cm_peek_mut cm_write cm_drop cm_removei : cm.
Lemma cm_sremove s h k : cm (sh_remove s h k) (sh_remove (shf s) h k).
Proof. unfold sh_remove. cm. Qed.
Lemma shf_collect s f xs : retain_collect (shf s) f xs = retain_collect s f xs.
Proof.
  induction xs as [|i xs IH]; cbn [retain_collect]; [done|]. rewrite shf_ents, shf_get, IH.
  by destruct (slab_get _ i) as [[[]?]|].
Qed.
Lemma cm_rremove s xs : cm (retain_remove s xs) (retain_remove (shf s) xs).
Proof. revert s. induction xs as [|[i h] xs IH]; intros s; cbn [retain_remove]; cm. Qed.
Lemma cm_retain s f : cm (sh_retain s f) (sh_retain (shf s) f).
Proof. unfold sh_retain. autorewrite with shf. rewrite shf_collect. apply cm_rremove. Qed.
Lemma cm_aghost s : cm (advance_ghost s) (advance_ghost (shf s)).
Proof. unfold advance_ghost. cm. Qed.
Hint Resolve cm_sremove cm_retain cm_aghost : cm.
Lemma cm_hevict s l i r : cm (hot_evict s l i r) (hot_evict (shf s) l i r).
Proof. unfold hot_evict. cm. Qed.
Hint Resolve cm_hevict : cm.
Lemma cm_ahl n s l i u : cm (advance_hot_loop n s l i u) (advance_hot_loop n (shf s) l i u).
Proof. revert s i u. induction n as [|n IH]; intros; cbn [advance_hot_loop]; cm. Qed.
Hint Resolve cm_ahl : cm.
Lemma cm_ahot s l : cm (advance_hot s l) (advance_hot (shf s) l).
Proof. unfold advance_hot. cm. Qed.
Hint Resolve cm_ahot : cm.
Lemma cm_trim n s l : cm (trim_hot n s l) (trim_hot n (shf s) l).
Proof. revert s l. induction n as [|n IH]; intros; cbn [trim_hot]; cm. Qed.
Hint Resolve cm_trim : cm.
Lemma cm_promote s l i r : cm (cold_promote s l i r) (cold_promote (shf s) l i r).
Proof. unfold cold_promote. cm. Qed.
Lemma cm_cevict s l i r : cm (cold_evict s l i r) (cold_evict (shf s) l i r).
Proof. unfold cold_evict. cm. Qed.
Hint Resolve cm_promote cm_cevict : cm.
Lemma cm_acl n s l i : cm (advance_cold_loop n s l i) (advance_cold_loop n (shf s) l i).
Proof. revert s i. induction n as [|n IH]; intros; cbn [advance_cold_loop]; cm. Qed.
Hint Resolve cm_acl : cm.
Lemma cm_acold s l : cm (advance_cold s l) (advance_cold (shf s) l).
Proof. unfold advance_cold. cm. Qed.
Hint Resolve cm_acold : cm.
Lemma cm_eloop n s l x : cm (evict_loop n s l x) (evict_loop n (shf s) l x).
Proof. revert s l. induction n as [|n IH]; intros; cbn [evict_loop]; cm. Qed.
Hint Resolve cm_eloop : cm.
Lemma cm_evict s l x : cm (evict_until s l x) (evict_until (shf s) l x).
Proof. unfold evict_until. cm. Qed.
Lemma cm_link_back s st i : cm (link_back s st i) (link_back (shf s) st i).
Proof. unfold link_back. cm. Qed.
Hint Resolve cm_evict cm_link_back : cm.
Lemma cm_existing s l i k v w st : cm (insert_existing s l i k v w st) (insert_existing (shf s) l i k v w st).
Proof.
  unfold insert_existing. apply cm_bind; [cm|]. intros [r|q|h]; cbn [shf sh_entry p_hot]; cbv zeta; cm.
Qed.
Lemma cm_over s l h k v st : cm (handle_insert_overweight s l h k v st) (handle_insert_overweight (shf s) l h k v st).
Proof. unfold handle_insert_overweight. cm. Qed.
Hint Resolve cm_existing cm_over : cm.
Lemma cm_insert_res es r : cm (slab_insert es (Resident r)) (slab_insert (shf es) (Resident r)).
Proof. apply (cm_insert es (Resident r)). Qed.
Hint Resolve cm_insert_res : cm.
Lemma cm_sinsert s l h k v st : cm (sh_insert s l h k v st) (sh_insert (shf s) l h k v st).
Proof. unfold sh_insert. cm. Qed.
Lemma cm_over2 s l p k v : cm (handle_overweight_replace_placeholder s l p k v) (handle_overweight_replace_placeholder (shf s) l (shf p) k v).
Proof. unfold handle_overweight_replace_placeholder. cbn [ph_idx ph_hash shf sh_plh]. cm. Qed.
Hint Resolve cm_sinsert cm_over2 : cm.
Lemma cm_rplace s l p b v : cm (replace_placeholder s l p b v) (replace_placeholder (shf s) l (shf p) b v).
Proof.
  unfold replace_placeholder. rewrite shf_ents, shf_get. change (ph_idx (shf p)) with (ph_idx p).
  destruct (slab_get (sh_ents s) (ph_idx p)) as [[[r|q|g] n]|]; cbn [shf sh_option sh_prod sh_entry sh_any fst snd p_shared p_key p_hot]; [by cm| |by cm|by cm].
  change (sh_plh ?x) with (shf x). change (sh_shard ?x) with (shf x). rewrite shf_same. destruct (same_as _ _); cm.
Qed.
Lemma shf_upsert_new s h i (k : K P) st :
  Pla (P:=P) k st (Plh h i (sh_nph (shf s))) = Pla k st (shf (Plh h i (sh_nph s))).
Proof. done. Qed.
Lemma shf_set_nph s : set_nph (shf s) (sh_nph (shf s) + 1) = shf (set_nph s (sh_nph s + 1)).
Proof. unfold set_nph, shf, sh_shard. simpl. f_equal. symmetry. apply N.add_assoc. Qed.
Lemma shf_set_pla s i k st p : set_entry (shf s) i (Placeholder (Pla k st (shf p))) = shf (set_entry s i (Placeholder (Pla k st p))).
Proof. unfold set_entry. rewrite <-shf_set_ents, <-shf_set. done. Qed.
Lemma cm_upsert s h k : cm (upsert_placeholder s h k) (upsert_placeholder (shf s) h k).
Proof.
  unfold upsert_placeholder. apply cm_bind; [cm|]. intros [i|]; cbn [shf sh_option sh_any]; cbv zeta.
  - apply cm_bind; [cm|]. intros [r|q|g]; cbn [shf sh_entry p_shared]; cbv zeta.
    + cm.
    + apply cm_ok. apply shf_pair; [apply shf_hit|done].
    + change (sh_shard ?x) with (shf x). rewrite shf_upsert_new, shf_set_nph, shf_set_pla. apply cm_bind; [cm|]. intros s1.
      apply cm_bind; [cm|]. intros [es o]. cbn [shf sh_prod fst snd]. change (sh_option nat o) with (shf o). change (sh_shard ?x) with (shf x).
      change (sh_slab ?x) with (shf x). autorewrite with shf. apply cm_ok. apply shf_pair; done.
  - change (sh_shard ?x) with (shf x). rewrite shf_upsert_new, shf_set_nph. apply cm_bind.
    + apply (cm_insert (sh_ents (set_nph s (sh_nph s + 1))) (Placeholder (Pla k Cold (Plh h (next_free (sh_ents s)) (sh_nph s))))).
    + intros [es i]. apply cm_bind; [apply cm_same|intros _]. apply cm_bind; [|intros s1; apply cm_ok; apply shf_pair; [apply shf_miss|done]].
      apply (cm_map_insert (set_ents (set_nph s (sh_nph s + 1)) es)).
Qed.
Hint Resolve cm_rplace cm_upsert : cm.
Lemma cm_use_refmut s o f : cm (use_refmut s o f) (use_refmut (shf s) o f).
Proof.
  unfold use_refmut. assert (refmut_seen (shf s) o = refmut_seen s o) as -> by (destruct o as [[??]|]; simpl; [apply shf_peek_token|done]).
  destruct o as [[t w]|]; cm.
Qed.
Lemma cm_fill s rs p v wl r c : cm (u_fill s rs p v wl r c) (u_fill (shf s) rs (shf p) v wl r c).
Proof. unfold u_fill. cm. Qed.
Hint Resolve cm_use_refmut cm_fill : cm.
Lemma cm_guard s rs p g : cm (use_guard s rs p g) (use_guard (shf s) rs (shf p) g).
Proof. unfold use_guard. destruct g; cm. Qed.
Hint Resolve cm_guard : cm.
Lemma shf_iter s : sh_iter (shf s) = sh_iter s.
Proof.
  unfold sh_iter, slab_iter. rewrite shf_ents. change (ents (shf (sh_ents s))) with (map shf (ents (sh_ents s))).
  induction (ents (sh_ents s)) as [|x xs IH]; [done|]. cbn [map]. destruct x as [[e|] n p]; [|exact IH].
  cbn [omap list_omap item shf sh_node sh_option] in IH |- *. destruct e as [r|q|g]; cbn [sh_entry resident_kv]; [by f_equal|exact IH..].
Qed.
Lemma shf_drain s : sh_drain (shf s) = (shf (sh_drain s).1, (sh_drain s).2).
Proof. transitivity ((sh_drain (shf s)).1, sh_iter (shf s)); [done|]. by rewrite shf_iter. Qed.
Lemma cm_load s k {A} `{Sh A} (f f' : shard * ((nat * V P) + (plh * bool)) → res A) :
  (∀ s1 i v, cm (f (s1, inl (i, v))) (f' (shf s1, inl (i, v)))) → (∀ s1 p b, cm (f (s1, inr (p, b))) (f' (shf s1, inr (shf p, b)))) →
  cm (rbind (upsert_placeholder s (hash P k) k) f) (rbind (upsert_placeholder (shf s) (hash P k) k) f').
Proof. intros H1 H2. apply cm_bind; [apply cm_upsert|]. intros [s1 [[i v]|[p b]]]; [apply H1|apply H2]. Qed.
Lemma cm_filled s rs p v wl r c {A} `{Sh A} (f f' : shard * out P → res A) :
  (∀ s1 o, cm (f (s1, o)) (f' (shf s1, o))) → cm (rbind (u_fill s rs p v wl r c) f) (rbind (u_fill (shf s) rs (shf p) v wl r c) f').
Proof. intros H1. apply cm_bind; [apply cm_fill|]. intros [s1 o]. apply H1. Qed.
Lemma cm_used s o g {A} `{Sh A} (f f' : shard * option (V P) → res A) :
  (∀ s1 v, cm (f (s1, v)) (f' (shf s1, v))) → cm (rbind (use_refmut s o g) f) (rbind (use_refmut (shf s) o g) f').
Proof. intros H1. apply cm_bind; [apply cm_use_refmut|]. intros [s1 v]. pose proof (H1 s1 v) as H2. rewrite <-(shf_nothing5 v) in H2 at 2. exact H2. Qed.
Lemma cm_done s (o : out P) : cm (Ok (s, o)) (Ok (shf s, o)).
Proof. done. Qed.
Lemma cm_exec s c : cm (exec s c) (exec (shf s) c).
Proof.
  destruct c; cbn [exec]; unfold u_contains, u_peek, u_get, u_get_mut, u_peek_mut, u_remove, u_replace, u_insert, u_get_or_insert,
    u_get_mut_or_insert, u_ref_or_guard, u_mut_or_guard.
  all: try (by cm).
  - rewrite shf_drain. by destruct (sh_drain s).
  - apply cm_load; [intros s1 i v0; rewrite shf_peek_token; apply cm_done|]. intros s1 p b. destruct w as [v0|]; [|apply cm_done].
    apply cm_filled. intros s2 o. rewrite shf_peek_token. apply cm_done.
  - apply cm_load; [intros s1 i v0; rewrite shf_peek_token_mut; apply cm_used; intros; apply cm_done|]. intros s1 p b.
    destruct w as [v0|]; [|apply cm_done]. apply cm_filled. intros s2 o. change (ph_idx (shf p)) with (ph_idx p).
    rewrite shf_peek_token_mut. apply cm_used; intros; apply cm_done.
  - apply cm_load; [intros s1 i v0; rewrite shf_peek_token_mut; apply cm_used; intros; apply cm_done|]. intros s1 p b. apply cm_guard.
Qed.
Lemma cm_run s h : cm (run s h) (run (shf s) h).
Proof.
  revert s. induction h as [|c h IH]; intros s; cbn [run]; [done|]. apply cm_bind; [apply cm_exec|]. intros [s1 o].
  apply (cm_bind (run s1 h) (run (shf s1) h)); [apply IH|]. by intros [s2 os].
Qed.
Lemma shf_run s h : run (shf s) h = match run s h with Ok (s', os) => Ok (shf s', os) | Fail f => Fail f end.
Proof. pose proof (cm_run s h) as Hc. unfold cm in Hc. rewrite Hc. by destruct (run s h) as [[??]|]. Qed.
(* ---- the sync cache ---- *)
Global Instance sh_xret : Sh (xret P) := λ r, match r with XWait p => XWait (shf p) | XNew p => XNew (shf p) | _ => r end.
Definition shx (x : sect P) : sect P :=
  match x with XFill rs p b v wl => XFill rs (shf p) b v wl | XDrop p => XDrop (shf p) | _ => x end.
Lemma cm_xexec s x : cm (xexec s x) (xexec (shf s) (shx x)).
Proof.
  destruct x as [m|k|rs p b v wl|p]; cbn [xexec shx].
  - apply (cm_bind _ _ _ _ (cm_exec s m)). by intros [s1 o].
  - apply cm_load; [done|]. by intros s1 p [].
  - apply (cm_bind _ _ _ _ (cm_rplace s (Lcs rs []) p b v)). by intros [[s1 l] [v1|]].
  - apply (cm_bind _ _ _ _ (cm_remove_placeholder s p)). by intros s1.
Qed.
Lemma shf_xexec s x : xexec (shf s) (shx x) = match xexec s x with Ok (s', r) => Ok (shf s', shf r) | Fail f => Fail f end.
Proof. pose proof (cm_xexec s x) as Hc. unfold cm in Hc. rewrite Hc. by destruct (xexec s x) as [[??]|]. Qed.
End shift.
