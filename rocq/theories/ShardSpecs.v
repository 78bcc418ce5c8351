(* What each operation of a shard does to the contents, the statistics, the pending entries and
   the memory, and how it can fail. *)
From Verif Require Export ShardEnter.

Section specs.
Context {P : Params} (LW : Lawful P).
Notation K := (K P). Notation V := (V P).
Notation entry := (entry P). Notation shard := (shard P). Notation resident := (resident P).
Implicit Types (s : shard) (l : lcs P) (e : entry) (r : resident) (its : list (option entry)) (k : K) (v : V) (c : contents P)
  (rs : rid → list nat) (fl : list nat) (sl : slab entry) (st : rstate).

(* ---- pending entries ---- *)
Lemma ph_at_upd s s' t o :
  its_of s' = <[t := o]> (its_of s) → t < length (its_of s) → (∀ p, o ≠ Some (Placeholder p)) →
  (∀ t', t' ≠ t → mapped s' t' ↔ mapped s t') →
  ∀ t', ph_at s' t' = if decide (t' = t) then None else ph_at s t'.
Proof.
  intros Hit Hlt Ho Hm t'. unfold ph_at. rewrite Hit. case_decide as Ht.
  - subst t'. rewrite list_lookup_insert by done. destruct o as [[| |]|]; try done. by destruct (Ho p).
  - rewrite list_lookup_insert_ne by done. destruct (its_of s !! t') as [[[]|]|]; try done.
    do 2 f_equal. apply bool_decide_ext. auto.
Qed.
Lemma ph_at_same s s' t o o0 :
  its_of s' = <[t := o]> (its_of s) → its_of s !! t = Some o0 →
  (∀ p, o ≠ Some (Placeholder p)) → (∀ p, o0 ≠ Some (Placeholder p)) →
  (∀ t', t' ≠ t → mapped s' t' ↔ mapped s t') →
  ∀ t', ph_at s' t' = ph_at s t'.
Proof.
  intros Hit Ht Ho Ho0 Hm t'. rewrite (ph_at_upd s s' t o) by (eauto using lookup_lt_Some).
  case_decide; [subst|done]. unfold ph_at. rewrite Ht. destruct o0 as [[| |]|]; try done. by destruct (Ho0 p).
Qed.
Lemma ph_at_map s s' : its_of s' = its_of s → sh_map s' = sh_map s → ∀ t, ph_at s' t = ph_at s t.
Proof.
  intros H1 H2 t. unfold ph_at. rewrite H1. destruct (its_of s !! t) as [[[]|]|]; try done.
  do 2 f_equal. apply bool_decide_ext. unfold mapped. by rewrite H2.
Qed.

Lemma ph_del_other s k t e k' : Inv s → mapped s t → its_of s !! t = Some (Some e) → ekey e = Some k' →
  keqb P k k' = true → ∀ t', t' ≠ t → ph_del k (ph_at s t') = ph_at s t'.
Proof.
  intros (rs & fl & HI) Hm Ht He Hk t' Hne. unfold ph_at.
  destruct (its_of s !! t') as [[[r|p|h]|]|] eqn:Ht'; try done. simpl.
  case_bool_decide as Hm'; [|done]. destruct (keqb P k (p_key p)) eqn:Hk'; [|done].
  destruct Hne. eapply (m_uniq _ _ _ (i_map _ _ _ HI) t' t); [done|done|exact Ht'|exact Ht|done|exact He|].
  rewrite (keqb_symb LW), <-(keqb_cong LW _ _ _ Hk). done.
Qed.
Lemma ph_del_absent s k : absent s k → ∀ t, ph_del k (ph_at s t) = ph_at s t.
Proof.
  intros Ha t. unfold ph_at. destruct (its_of s !! t) as [[[r|p|h]|]|] eqn:Ht; try done. simpl.
  case_bool_decide as Hm; [|done]. by rewrite (Ha _ _ _ Hm Ht eq_refl).
Qed.
Lemma ph_del_res s k t r : Inv s → its_of s !! t = Some (Some (Resident r)) → keqb P k (r_key r) = true →
  ∀ t', ph_del k (ph_at s t') = ph_at s t'.
Proof.
  intros HI Ht Hk t'. destruct (decide (t' = t)) as [->|Hne].
  - unfold ph_at. by rewrite Ht.
  - eapply (ph_del_other s k t); [done|by eapply res_mapped|exact Ht|done|done|done].
Qed.
Lemma ph_del_pl s k t p : Inv s → its_of s !! t = Some (Some (Placeholder p)) → mapped s t → keqb P k (p_key p) = true →
  ∀ t', ph_del k (ph_at s t') = if decide (t' = t) then None else ph_at s t'.
Proof.
  intros HI Ht Hm Hk t'. case_decide as Hne.
  - subst. unfold ph_at. rewrite Ht. simpl. rewrite bool_decide_true by done. by rewrite Hk.
  - eapply (ph_del_other s k t); [done|done|exact Ht|done|done|done].
Qed.
Lemma ph_at_pl s t p : its_of s !! t = Some (Some (Placeholder p)) → mapped s t → ph_at s t = Some (p, true).
Proof. intros Ht Hm. unfold ph_at. rewrite Ht. by rewrite bool_decide_true. Qed.
Lemma ph_at_Some s t p b : ph_at s t = Some (p, b) ↔ its_of s !! t = Some (Some (Placeholder p)) ∧ b = bool_decide (mapped s t).
Proof. unfold ph_at. destruct (its_of s !! t) as [[[r|q|h]|]|]; naive_solver. Qed.

(* ---- reads ---- *)
Record quiet s s' : Prop := {
  q_inv : Inv s';
  q_iter : sh_iter s' = sh_iter s;
  q_cfg : cfg s' = cfg s;
  q_ph : ∀ t, ph_at s' t = ph_at s t;
  q_nph : sh_nph s' = sh_nph s;
  q_slots : slots s' = slots s;
  q_used : used s' = used s;
}.
Definition tick (b : bool) (p : N * N) : N * N := if b then (p.1 + 1, p.2)%N else (p.1, p.2 + 1)%N.

Lemma inv_stats s x y : Inv s → Inv (set_misses (set_hits s x) y).
Proof.
  intros (rs & fl & [A B C [D1 D2 D3] E F]). by exists rs, fl; split.
Qed.
Lemma quiet_refl s : Inv s → quiet s s.
Proof. by split. Qed.
Lemma quiet_trans s1 s2 s3 : quiet s1 s2 → quiet s2 s3 → quiet s1 s3.
Proof. intros [] []. split; congruence. Qed.
Lemma quiet_hit s s' : quiet s s' → quiet s (record_hit s').
Proof.
  intros [A B C D E F G]. pose proof (inv_stats _ (sh_hits s' + 1) (sh_misses s') A) as H. split; try done.
Qed.
Lemma quiet_miss s s' : quiet s s' → quiet s (record_miss s').
Proof.
  intros [A B C D E F G]. pose proof (inv_stats _ (sh_hits s') (sh_misses s' + 1) A) as H. split; try done.
Qed.
Lemma quiet_ref s t r x : Inv s → its_of s !! t = Some (Some (Resident r)) →
  quiet s (set_entry s t (Resident (set_key_ref r x))) ∧ stats (set_entry s t (Resident (set_key_ref r x))) = stats s.
Proof.
  intros (rs & fl & HI) Ht. destruct (ref_spec LW s rs fl t r x HI Ht) as [HI' [Hs Hr]].
  split; [|done]. pose proof (its_set_entry s t (Resident (set_key_ref r x)) _ Ht) as Hit. split; try done.
  - by exists rs, fl.
  - rewrite !sh_iter_kvs. symmetry. by apply kvs_refeq.
  - eapply ph_at_same; eauto.
  - unfold slots. by rewrite Hit, insert_length.
  - unfold used. symmetry. by apply esum_refeq.
Qed.
Definition bump r : resident := if (r_ref r <? MAX_F)%N then set_key_ref r (r_ref r + 1) else r.
Lemma bump_ref r : ∃ x, bump r = set_key_ref r x.
Proof. unfold bump. destruct (_ <? _)%N; [eauto|]. exists (r_ref r). by destruct r. Qed.
Lemma quiet_bump s t r : Inv s → its_of s !! t = Some (Some (Resident r)) →
  let s' := record_hit (set_entry s t (Resident (bump r))) in
  quiet s s' ∧ stats s' = tick true (stats s) ∧ its_of s' !! t = Some (Some (Resident (bump r))).
Proof.
  intros HI Ht s'. destruct (bump_ref r) as [x Hx]. unfold s'. rewrite Hx.
  destruct (quiet_ref s t r x HI Ht) as [Hq Hs]. split; [by apply quiet_hit|]. split; [done|].
  change (its_of (set_entry s t (Resident (set_key_ref r x))) !! t = Some (Some (Resident (set_key_ref r x)))).
  rewrite (its_set_entry _ _ _ _ Ht). apply list_lookup_insert. by eapply lookup_lt_Some.
Qed.

Lemma sh_get_spec s k : Inv s →
  ∃ s', sh_get s (hash P k) k = Ok (s', value_of k (sh_iter s)) ∧ quiet s s' ∧
    stats s' = tick (has k (sh_iter s)) (stats s).
Proof.
  intros HI. unfold sh_get, value_of, has. destruct (search_resident_spec LW s k HI) as ([[t r]|] & -> & Ho); simpl.
  - destruct Ho as (Ht & Hk & ->). simpl. fold (bump r). eexists. split; [done|].
    destruct (quiet_bump s t r HI Ht) as (? & ? & _). done.
  - destruct Ho as (Ht & ->). simpl. eexists. split; [done|]. split; [|done]. by apply quiet_miss, quiet_refl.
Qed.
Lemma sh_peek_spec s k : Inv s → sh_peek s (hash P k) k = Ok (value_of k (sh_iter s)).
Proof.
  intros HI. unfold sh_peek, value_of. destruct (search_resident_spec LW s k HI) as ([[t r]|] & -> & Ho); simpl.
  - destruct Ho as (Ht & Hk & ->). done.
  - by destruct Ho as (Ht & ->).
Qed.
Lemma sh_contains_spec s k : Inv s → sh_contains s (hash P k) k = Ok (has k (sh_iter s)).
Proof.
  intros HI. unfold sh_contains, has. destruct (tfind_res LW s k HI) as ([t|] & -> & Ho); simpl.
  - destruct Ho as (r & Ht & Hk). by rewrite (find_iter LW s t r k HI Ht Hk).
  - destruct (find_key k (sh_iter s)) as [[k' v']|] eqn:Hf; [|done].
    apply find_key_Some in Hf as [Hin Hk]. apply iter_elem in Hin as (t & r & Ht & <- & <-).
    simpl in Hk. by rewrite (Ho _ _ Ht) in Hk.
Qed.
(* the token and old weight in a RefMut *)
Definition refers s k (o : option (nat * N)) : Prop :=
  match o with
  | Some (t, w) => ∃ r, its_of s !! t = Some (Some (Resident r)) ∧ keqb P k (r_key r) = true ∧ w = rweight r
  | None => find_key k (sh_iter s) = None
  end.
Lemma sh_get_mut_spec s k : Inv s →
  ∃ s' o, sh_get_mut s (hash P k) k = Ok (s', o) ∧ quiet s s' ∧
    stats s' = tick (has k (sh_iter s)) (stats s) ∧ refers s' k o.
Proof.
  intros HI. unfold sh_get_mut, has. destruct (search_resident_spec LW s k HI) as ([[t r]|] & -> & Ho); simpl.
  - destruct Ho as (Ht & Hk & ->). rewrite (entry_at_ok _ _ _ Ht). simpl. fold (bump r). eexists _, _. split; [done|].
    destruct (quiet_bump s t r HI Ht) as (Hq & Hs & Hr). split; [done|]. split; [done|].
    simpl. exists (bump r). destruct (bump_ref r) as [x Hx]. rewrite Hx in *. done.
  - destruct Ho as (Ht & Hf). rewrite Hf. simpl. eexists _, _. split; [done|]. split; [by apply quiet_miss, quiet_refl|].
    split; [done|]. done.
Qed.
Lemma peek_token_ok s t r : its_of s !! t = Some (Some (Resident r)) → peek_token s t = Some (r_val r).
Proof. intros Ht. unfold peek_token. by destruct (get_live _ _ _ Ht) as (n & -> & _). Qed.
Lemma peek_token_mut_ok s t r : its_of s !! t = Some (Some (Resident r)) → peek_token_mut s t = Some (t, rweight r).
Proof. intros Ht. unfold peek_token_mut. by destruct (get_live _ _ _ Ht) as (n & -> & _). Qed.
Lemma sh_peek_mut_spec s k : Inv s →
  ∃ o, sh_peek_mut s (hash P k) k = Ok o ∧ refers s k o.
Proof.
  intros HI. unfold sh_peek_mut. destruct (search_resident_spec LW s k HI) as ([[t r]|] & -> & Ho); simpl.
  - destruct Ho as (Ht & Hk & _). rewrite (peek_token_mut_ok _ _ _ Ht). eexists. split; [done|]. simpl. eauto.
  - destruct Ho as (_ & Hf). eexists. split; [done|]. done.
Qed.

(* ---- using and dropping a RefMut ---- *)
Definition refmut_use s (o : option (nat * N)) (f : V → V) : res shard :=
  match o with
  | None => Ok s
  | Some (t, w) => let! s := refmut_write s t f in refmut_drop s t w
  end.
Lemma upd_none k f c : find_key k c = None → upd k f c = c.
Proof.
  intros H. unfold upd. induction c as [|p c IH]; [done|]. simpl in *.
  destruct (keqb P k p.1); [done|]. by rewrite IH.
Qed.
Lemma upd_perm k f c c' : c ≡ₚ c' → upd k f c ≡ₚ upd k f c'.
Proof. intros H. by apply Permutation_map. Qed.
Lemma upd_head k f p c : ukeys (p :: c) → keqb P k p.1 = true → upd k f (p :: c) = (p.1, f p.2) :: c.
Proof.
  intros [Hu _] Hk. unfold upd. simpl. rewrite Hk. f_equal. apply (upd_none k f c), (find_key_None k c).
  intros q Hq. rewrite Forall_forall in Hu. rewrite (keqb_cong LW _ _ _ Hk). by apply Hu.
Qed.
Lemma upd_kvs s t r k f v' x : Inv s → its_of s !! t = Some (Some (Resident r)) → keqb P k (r_key r) = true →
  v' = f (r_val r) →
  kvs (<[t := Some (Resident (Res (r_key r) v' x (r_ref r)))]> (its_of s)) ≡ₚ upd k f (sh_iter s).
Proof.
  intros HI Ht Hk ->. pose proof (inv_ukeys LW s HI) as Hu. rewrite sh_iter_kvs in *.
  pose proof (kvs_split _ _ _ Ht) as Hp. simpl in Hp. apply (ukeys_perm LW _ _ Hp) in Hu.
  etrans; [|symmetry; by apply upd_perm]. rewrite upd_head by done. simpl.
  by etrans; [by apply (kvs_insert _ _ _ _ Ht)|].
Qed.

Record changed s s' : Prop := {
  c_inv : Inv s';
  c_static : static s' = static s;
  c_ph : ∀ t, ph_at s' t = ph_at s t;
  c_slots : slots s' = slots s;
}.
Lemma set_entry_twice s t e e' : set_entry (set_entry s t e) t e' = set_entry s t e'.
Proof.
  unfold set_entry, set_ents. simpl. f_equal. unfold slab_set.
  destruct (ents (sh_ents s) !! t) as [n|] eqn:Hn; simpl.
  - rewrite list_lookup_insert by (by eapply lookup_lt_Some). unfold Slab.upd. simpl.
    by rewrite list_insert_insert.
  - by rewrite Hn.
Qed.

(* the value found by a RefMut is changed by f; the account is corrected when it is dropped *)
Lemma refmut_use_spec (E : fail → Prop) s k o f : Inv s → refers s k o →
  (∀ ko vo, find_key k (sh_iter s) = Some (ko, vo) → (two64 ≤ wsum (upd k f (sh_iter s)))%N → E WeightOvf) →
  wp E (refmut_use s o f) (λ s', changed s s' ∧ sh_iter s' ≡ₚ upd k f (sh_iter s) ∧ used s' = used s).
Proof.
  intros HI Hr HE. destruct o as [[t w]|]; simpl in *.
  2:{ split; [by split|]. by rewrite upd_none. }
  destruct Hr as (r & Ht & Hk & ->).
  pose proof (find_iter LW s t r k HI Ht Hk) as Hf.
  destruct (get_live _ _ _ Ht) as (n & Hg & _). unfold refmut_write. rewrite Hg. simpl.
  set (r' := set_rval r (f (r_val r))).
  pose proof (its_set_entry s t (Resident r') _ Ht) as Hit.
  assert (t < length (its_of s)) as Hlt by (by eapply lookup_lt_Some).
  assert (its_of (set_entry s t (Resident r')) !! t = Some (Some (Resident r'))) as Ht'.
  { rewrite Hit. by apply list_lookup_insert. }
  destruct (get_live _ _ _ Ht') as (n' & Hg' & _).
  unfold refmut_drop. rewrite Hg'.
  assert (kvs (<[t := Some (Resident r')]> (its_of s)) ≡ₚ upd k f (sh_iter s)) as Hkv by (by apply (upd_kvs s t r k f)).
  assert (esum one (<[t := Some (Resident r')]> (its_of s)) = used s) as Hus.
  { rewrite (esum_upd _ _ _ _ _ Ht). simpl. pose proof (esum_ge one _ _ _ Ht). unfold used, one in *. lia. }
  destruct (N.eqb_spec (rweight r) (rweight r')) as [Hw|Hw]; simpl.
  - destruct HI as (rs & fl & HI). split; [split|split].
    + exists rs, fl. eapply (same_spec LW); eauto. apply (keqb_refl _ LW).
    + done.
    + eapply ph_at_same; eauto.
    + unfold slots. by rewrite Hit, insert_length.
    + by rewrite sh_iter_kvs, Hit.
    + unfold used at 1. by rewrite Hit.
  - unfold cold_change_weight. rewrite Hg'. change (r_state r') with (r_state r).
    change (rbind (sub_weight (set_entry s t (Resident r')) (r_state r) (rweight r)) _) with
      (reweigh (set_entry s t (Resident r')) (r_state r) t (rweight r) (rweight r')).
    pose proof (reweigh_spec LW s t r r' HI Ht eq_refl (keqb_refl _ LW _)) as Hrs. simpl in Hrs.
    destruct (N.ltb_spec (a_weight (sh_acct s (r_state r)) - rweight r + rweight r') two64) as [HW|HW].
    + destruct Hrs as (s' & -> & HI' & Hit' & Hm & Hst). simpl. split; [split|split].
      * done.
      * done.
      * eapply ph_at_same; eauto. intros t' _. unfold mapped. by rewrite Hm.
      * unfold slots. by rewrite Hit', insert_length.
      * by rewrite sh_iter_kvs, Hit'.
      * unfold used at 1. by rewrite Hit'.
    + rewrite Hrs. simpl. eapply HE; [done|]. rewrite <-Hkv. rewrite wsum_esum.
      rewrite !(esum_upd _ _ _ _ _ Ht). simpl. 
      destruct HI as (rs & fl & HI). destruct (i_acc _ _ _ HI) as [HAw _ _].
      rewrite HAw in HW. destruct (r_state r); simpl in *; rewrite ?decide_True, ?decide_False by done; lia.
Qed.

(* ---- remove ---- *)
Lemma removed_facts s s' t e : Inv s → its_of s !! t = Some (Some e) → mapped s t →
  its_of s' = <[t := None]> (its_of s) → sh_map s' = tremove (sh_map s) t →
  (∀ t', ph_at s' t' = if decide (t' = t) then None else ph_at s t') ∧ slots s' = slots s ∧ (used s' + 1 = used s)%N.
Proof.
  intros HI Ht Hm Hit Hmap. split_and!.
  - eapply ph_at_upd; [done|by eapply lookup_lt_Some|done|].
    intros t' Hne. unfold mapped. rewrite Hmap, elem_tremove_snd. naive_solver.
  - unfold slots. by rewrite Hit, insert_length.
  - unfold used. rewrite Hit, (esum_upd _ _ _ _ _ Ht). pose proof (esum_ge one _ _ _ Ht). unfold one in *. simpl. lia.
Qed.
Lemma ekey_hash e k' k : ekey e = Some k' → keqb P k k' = true → hash_of_entry e = hash P k.
Proof. intros He Hk. rewrite (hash_keqb _ LW _ _ Hk). by destruct e; simplify_eq/=. Qed.

Lemma sh_remove_spec s k : Inv s →
  ∃ s', sh_remove s (hash P k) k = Ok (s', find_key k (sh_iter s)) ∧ Inv s' ∧ static s' = static s ∧
    sh_iter s' ≡ₚ del k (sh_iter s) ∧ (∀ t, ph_at s' t = ph_del k (ph_at s t)) ∧
    slots s' = slots s ∧ (used s' ≤ used s)%N.
Proof.
  intros HI. unfold sh_remove. destruct (search_spec LW s k HI) as (o & -> & Ho). simpl.
  destruct Ho as [t e k' Hm Ht He Hk|t Hm Ht Ha|Ha Hg].
  - rewrite <-(ekey_hash e k' k) by done.
    destruct (remove_internal_spec LW s t e HI Ht Hm) as (s' & -> & HI' & Hit & Hmap & Hst).
    destruct (removed_facts s s' t e) as (Hph & Hsl & Hus); try done.
    destruct e as [r|p|h]; simpl in He; [injection He as <-|injection He as <-|done]; simpl.
    + rewrite (find_iter LW s t r k HI Ht Hk). eexists. split; [done|]. split_and!; try done; [| |lia].
      * rewrite sh_iter_kvs, Hit. by apply (del_kvs LW s t r).
      * intros t'. rewrite (ph_del_res s k t r) by done. rewrite Hph. case_decide; [|done].
        subst. unfold ph_at. by rewrite Ht.
    + assert (find_key k (sh_iter s) = None) as Hf.
      { apply find_key_None. intros [k' v'] Hin. apply iter_elem in Hin as (t' & r' & Ht' & <- & <-). simpl.
        destruct (keqb P k (r_key r')) eqn:Hk'; [|done]. exfalso.
        assert (t = t') as ->; [|congruence]. pose proof (res_mapped _ _ _ HI Ht') as Hm'.
        destruct HI as (rs & fl & HI). eapply (m_uniq _ _ _ (i_map _ _ _ HI) t t'); [done|done|exact Ht|exact Ht'|done|done|].
        by rewrite <-(keqb_cong LW _ _ _ Hk). }
      rewrite Hf. eexists. split; [done|]. split_and!; try done; [| |lia].
      * rewrite del_none by done. rewrite !sh_iter_kvs, Hit. by rewrite (kvs_same _ _ _ _ Ht).
      * intros t'. by rewrite (ph_del_pl s k t p), Hph.
  - destruct (remove_internal_spec LW s t _ HI Ht Hm) as (s' & Hrm & HI' & Hit & Hmap & Hst).
    simpl in Hrm. rewrite Hrm.
    destruct (removed_facts s s' t _ HI Ht Hm Hit Hmap) as (Hph & Hsl & Hus).
    rewrite (absent_find _ _ HI Ha). simpl. eexists. split; [done|]. split_and!; try done; [| |lia].
    + rewrite del_none by (by apply absent_find). rewrite !sh_iter_kvs, Hit. by rewrite (kvs_same _ _ _ _ Ht).
    + intros t'. rewrite ph_del_absent by done. rewrite Hph. case_decide; [|done].
      subst. unfold ph_at. by rewrite Ht.
  - rewrite (absent_find _ _ HI Ha). eexists. split; [done|]. split_and!; try done.
    + rewrite del_none by (by apply absent_find). done.
    + intros t'. by rewrite ph_del_absent.
Qed.

(* ---- retain ---- *)
Lemma retain_remove_spec L : ∀ s, Inv s → NoDup L.*1 →
  (∀ t h, (t, h) ∈ L → ∃ r, its_of s !! t = Some (Some (Resident r)) ∧ h = hash P (r_key r)) →
  ∃ s', retain_remove s L = Ok s' ∧ Inv s' ∧ static s' = static s ∧
    (∀ t, its_of s' !! t = if decide (t ∈ L.*1) then Some None else its_of s !! t) ∧
    length (its_of s') = length (its_of s) ∧
    (∀ t, ph_at s' t = ph_at s t) ∧ (used s' ≤ used s)%N.
Proof.
  induction L as [|[t h] L IH]; intros s HI Hnd HL; simpl.
  - exists s. split_and!; try done. 
  - csimpl in *. apply NoDup_cons in Hnd as [Hni Hnd].
    destruct (HL t h ltac:(left)) as (r & Ht & ->).
    pose proof (res_mapped _ _ _ HI Ht) as Hm.
    destruct (remove_internal_spec LW s t _ HI Ht Hm) as (s1 & Hrm & HI1 & Hit & Hmap & Hst).
    simpl in Hrm. rewrite Hrm. simpl.
    destruct (removed_facts s s1 t _ HI Ht Hm Hit Hmap) as (Hph & Hsl & Hus).
    assert (t < length (its_of s)) as Hlt by (by eapply lookup_lt_Some).
    destruct (IH s1 HI1 Hnd) as (s' & -> & HI' & Hst' & Hit' & Hlen & Hph' & Hus').
    { intros t' h' Hin. destruct (HL t' h' ltac:(by right)) as (r' & Ht' & ->). exists r'. split; [|done].
      rewrite Hit, list_lookup_insert_ne; [done|]. intros ->. apply Hni. apply elem_of_list_fmap. by exists (t', hash P (r_key r')). }
    exists s'. split_and!; try done.
    + congruence.
    + intros t'. rewrite Hit', Hit. destruct (decide (t' = t)) as [->|Hne].
      * rewrite decide_False by done. rewrite list_lookup_insert by done. rewrite decide_True; [done|left].
      * rewrite list_lookup_insert_ne by done. destruct (decide (t' ∈ L.*1)).
        -- rewrite decide_True by (by right). done.
        -- rewrite decide_False; [done|]. rewrite elem_of_cons. tauto.
    + by rewrite Hlen, Hit, insert_length.
    + intros t'. rewrite Hph', Hph. case_decide; [|done]. subst. unfold ph_at. by rewrite Ht.
    + lia.
Qed.

Definition rejected s f (t : nat) (h : N) : Prop :=
  ∃ r, its_of s !! t = Some (Some (Resident r)) ∧ h = hash P (r_key r) ∧ f (r_key r) (r_val r) = false.
Lemma retain_collect_spec s f L : NoDup L →
  NoDup (retain_collect s f L).*1 ∧ ∀ t h, (t, h) ∈ retain_collect s f L ↔ t ∈ L ∧ rejected s f t h.
Proof.
  induction L as [|t L IH]; intros Hnd; simpl.
  - split; [constructor|]. intros t h. rewrite !elem_of_nil. naive_solver.
  - apply NoDup_cons in Hnd as [Hni Hnd]. destruct (IH Hnd) as [IH1 IH2]. clear IH.
    assert (∀ t h, (t, h) ∈ retain_collect s f L → t ∈ L) as Hsub by (intros ?? ?%IH2; tauto).
    assert (t ∉ (retain_collect s f L).*1) as Hnc.
    { intros ([t' h'] & -> & Hin)%elem_of_list_fmap. by apply Hsub in Hin. }
    destruct (slab_get (sh_ents s) t) as [[[r|p|g] n]|] eqn:Hg.
    + apply get_items in Hg as [Ht _]. destruct (f (r_key r) (r_val r)) eqn:Hf; simpl.
      * split; [done|]. intros t' h'. rewrite IH2, elem_of_cons. split; [tauto|]. intros [[->|?] Hr]; [|tauto].
        destruct Hr as (r' & Ht' & _ & Hf'). change (items (sh_ents s)) with (its_of s) in Ht. rewrite Ht in Ht'. simplify_eq. congruence.
      * split; [by apply NoDup_cons|]. intros t' h'. rewrite elem_of_cons, IH2, elem_of_cons. split.
        -- intros [[= -> ->]|?]; [|tauto]. split; [tauto|]. exists r. done.
        -- intros [[->|?] Hr]; [|tauto]. left.
           destruct Hr as (r' & Ht' & -> & Hf'). change (items (sh_ents s)) with (its_of s) in Ht. rewrite Ht in Ht'. by simplify_eq.
    + apply get_items in Hg as [Ht _]. split; [done|]. intros t' h'. rewrite IH2, elem_of_cons. split; [tauto|].
      intros [[->|?] Hr]; [|tauto]. destruct Hr as (r' & Ht' & _). change (items (sh_ents s)) with (its_of s) in Ht. congruence.
    + apply get_items in Hg as [Ht _]. split; [done|]. intros t' h'. rewrite IH2, elem_of_cons. split; [tauto|].
      intros [[->|?] Hr]; [|tauto]. destruct Hr as (r' & Ht' & _). change (items (sh_ents s)) with (its_of s) in Ht. congruence.
    + apply get_items_None in Hg. split; [done|]. intros t' h'. rewrite IH2, elem_of_cons. split; [tauto|].
      intros [[->|?] Hr]; [|tauto]. destruct Hr as (r' & Ht' & _). destruct Hg. by eexists.
Qed.
Lemma kvs_filter (f : K → V → bool) its its' : length its' = length its →
  (∀ t, its' !! t = match its !! t with Some (Some (Resident r)) => if f (r_key r) (r_val r) then its !! t else Some None | o => o end) →
  kvs its' = List.filter (λ p, f p.1 p.2) (kvs its).
Proof.
  revert its'. induction its as [|o its IH]; intros its' Hlen H.
  - destruct its'; [done|]. done.
  - destruct its' as [|o' its']; [done|]. pose proof (H 0) as H0. simpl in H0.
    change (kvs (o :: its)) with (okv o ++ kvs its). change (kvs (o' :: its')) with (okv o' ++ kvs its').
    rewrite (List.filter_app), <-(IH its'); [|simpl in Hlen; lia|intros t; apply (H (S t))]. f_equal.
    destruct o as [[r|p|g]|]; simplify_eq/=; try done.
    destruct (f (r_key r) (r_val r)); by simplify_eq/=.
Qed.

Lemma sh_retain_spec s f : Inv s →
  ∃ s', sh_retain s f = Ok s' ∧ changed s s' ∧ sh_iter s' = List.filter (λ p, f p.1 p.2) (sh_iter s) ∧ (used s' ≤ used s)%N.
Proof.
  intros HI. unfold sh_retain.
  assert (NoDup (titer P (sh_map s))) as Hnd.
  { rewrite (titer_perm _ LW). destruct HI as (rs & fl & HI). apply HI. }
  destruct (retain_collect_spec s f _ Hnd) as [Hnd' Hc].
  destruct (retain_remove_spec _ s HI Hnd') as (s' & -> & HI' & Hst & Hit & Hlen & Hph & Hus).
  { intros t h Hin. apply Hc in Hin as [_ (r & Ht & -> & _)]. eauto. }
  eexists. split; [done|]. split; [split; [done|done|done|unfold slots; by rewrite Hlen]|]. split; [|done].
  rewrite !sh_iter_kvs. apply kvs_filter; [done|]. intros t. rewrite Hit.
  case_decide as Hin.
  - apply elem_of_list_fmap in Hin as ([t' h'] & -> & Hin). apply Hc in Hin as [_ (r & Ht & _ & Hf)]. simpl.
    rewrite Ht. by rewrite Hf.
  - destruct (its_of s !! t) as [[[r|p|g]|]|] eqn:Ht; try done.
    destruct (f (r_key r) (r_val r)) eqn:Hf; [done|]. destruct Hin.
    apply elem_of_list_fmap. exists (t, hash P (r_key r)). split; [done|]. apply Hc. split.
    + rewrite (titer_perm _ LW). by eapply res_mapped.
    + by exists r.
Qed.

(* ---- new, drain, clear, reserve ---- *)
Lemma memb_nil : memb (P:=P) (λ _, []) [].
Proof. intros r t. split; [by intros ?%elem_of_nil|]. intros (e & He & _). by rewrite lookup_nil in He. Qed.
Lemma MI_nil nph : MI (P:=P) [] [] nph.
Proof.
  split.
  - constructor.
  - by intros ?? ?%elem_of_nil.
  - intros t e He. by rewrite lookup_nil in He.
  - by intros ?????? ?%elem_of_nil.
  - intros t p He. by rewrite lookup_nil in He.
  - intros ???? He. by rewrite lookup_nil in He.
Qed.
Lemma sh_new_inv target cap_nr cap : Inv (sh_new (P:=P) target cap_nr cap).
Proof.
  exists (λ _, []), []. split; simpl; [apply RI_new|by intros []|apply memb_nil| |lia|apply MI_nil].
  split; [by intros []|by intros []|done].
Qed.
Lemma sh_drain_spec s : Inv s →
  ∃ s', sh_drain s = (s', sh_iter s) ∧ Inv s' ∧ static s' = static s ∧ sh_iter s' = [] ∧
    (∀ t, ph_at s' t = None) ∧ slots s' = 0%N ∧ used s' = 0%N.
Proof.
  intros HI. unfold sh_drain. simpl. eexists. split; [done|]. split_and!; try done.
  exists (λ _, []), []. split; simpl; [apply RI_new|by intros []|apply memb_nil| |lia|apply MI_nil].
  split; [by intros []|by intros []|done].
Qed.
Lemma sh_reserve_spec s : Inv s → ∃ s', sh_reserve s = Ok s' ∧ quiet s s' ∧ stats s' = stats s.
Proof.
  intros (rs & fl & HI). unfold sh_reserve, treserve.
  rewrite rehash_ok by (intros h t Hin; eapply hasher_ok; [apply HI|done|done]).
  assert ((if grows P (sh_map s) then Ok (tpairs (sh_map s)) else Ok (tpairs (sh_map s))) = Ok (tpairs (sh_map s))) as -> by (by destruct (grows _ _)).
  simpl. eexists. split; [done|]. split; [|done]. split; try done.
  exists rs, fl. destruct HI as [A B C [D1 D2 D3] E F]. by split.
Qed.
End specs.
