(* Proofs about forgotten references and unfinished iterators. *)
From Verif Require Import SeqProofs5 Builds LeakSpec.

Section same.
Context {P : Params} {B : Build}.
Notation shard := (shard P).
Implicit Types (s : shard).

Definition weightless_change (f : V P → V P) : Prop := ∀ k v, weight P k (f v) = weight P k v.
Lemma entry_nat s i r : entry_at s i = Ok (Resident r) → ∃ n, slab_get (sh_ents s) i = Some (Resident r, n).
Proof. unfold entry_at. destruct (slab_get _ _) as [[e n]|]; simpl; [|done]. intros [= ->]. eauto. Qed.
(* the weight in the reference is that of the item *)
Definition weighed s (o : option (nat * N)) : Prop :=
  ∀ t w, o = Some (t, w) → ∃ r n, slab_get (sh_ents s) t = Some (Resident r, n) ∧ w = rweight r.
Lemma leak_same s o f : weighed s o → (∀ t w r n, o = Some (t, w) → slab_get (sh_ents s) t = Some (Resident r, n) → weight P (r_key r) (f (r_val r)) = weight P (r_key r) (r_val r)) →
  leak_refmut s o f = use_refmut s o f.
Proof.
  intros Hp Hf. unfold leak_refmut, use_refmut. destruct o as [[t w]|]; [|done]. destruct (Hp t w eq_refl) as (r & n & Hg & ->).
  unfold refmut_write. rewrite Hg. simpl. destruct (set_get _ _ _ _ (Resident (set_rval r (f (r_val r)))) Hg) as [n' Hg'].
  unfold refmut_drop. simpl. rewrite Hg'. change (rweight (set_rval r (f (r_val r)))) with (weight P (r_key r) (f (r_val r))).
  rewrite (Hf _ _ _ _ eq_refl Hg). unfold rweight. by rewrite N.eqb_refl.
Qed.
Lemma safe_leak s o f : points s o → safe (leak_refmut s o f).
Proof.
  intros Hp. unfold leak_refmut. destruct o as [[t w]|]; [|safe]. destruct (Hp t w eq_refl) as (r & n & Hg).
  apply safe_bind; [unfold refmut_write; rewrite Hg; safe|]. safe.
Qed.
Hint Resolve safe_ok safe_leak points_token safe_get_mut safe_peek_mut safe_upsert safe_fill safe_guard safe_exec : safe.
Lemma safe_l_exec s m : safe (l_exec s m).
Proof.
  destruct m; cbn [l_exec].
  - apply safe_bind; [safe|]. intros [s' o] Ho. apply safe_bind; [apply safe_leak; by eapply points_get_mut|safe].
  - apply safe_bind; [safe|]. intros o Ho. apply safe_bind; [apply safe_leak; by eapply points_peek_mut|safe].
  - safe.
  - safe.
  - safe.
Qed.
Lemma safe_l_run s h : safe (l_run s h).
Proof.
  revert s. induction h as [|m h IH]; intros s; cbn [l_run]; [safe|]. apply safe_bind; [|safe]. destruct m; [apply safe_exec|apply safe_l_exec].
Qed.

Lemma weighed_token s t : weighed s (peek_token_mut s t).
Proof. intros t' w. unfold peek_token_mut. destruct (slab_get _ t) as [[[r| |] n]|] eqn:?; intros; simplify_eq; eauto. Qed.
Lemma weighed_get_mut s h k s' o : sh_get_mut s h k = Ok (s', o) → weighed s' o.
Proof.
  unfold sh_get_mut. intros H. apply bind_ok in H as ([[i r]|] & Hs & H); [|simplify_eq; by intros ???].
  apply bind_ok in H as (e & He & H). destruct e as [r'| |]; simplify_eq. intros t w Hx. simplify_eq.
  apply entry_get in He as [n Hg]. edestruct (set_get _ _ _ _ (Resident (if (r_ref r' <? MAX_F)%N then set_key_ref r' (r_ref r' + 1) else r')) Hg) as [n' Hg'].
  eexists _, _. split; [exact Hg'|]. by destruct (_ <? _)%N.
Qed.
Lemma weighed_peek_mut s h k o : sh_peek_mut s h k = Ok o → weighed s o.
Proof.
  unfold sh_peek_mut. intros H. apply bind_ok in H as ([[i r]|] & Hs & H); simplify_eq; [apply weighed_token|by intros ???].
Qed.
(* the calls that leave no trace of the forgetting *)
Lemma l_exec_same s m f : l_change m = Some f → weightless_change f → l_exec s m = exec s (l_kept m).
Proof.
  intros Hm Hf. assert (∀ s o, weighed s o → leak_refmut s o f = use_refmut s o f) as HL by (intros; by apply leak_same).
  destruct m; simpl in *; simplify_eq; unfold u_get_mut, u_peek_mut, u_get_mut_or_insert, u_mut_or_guard.
  - destruct (sh_get_mut s (hash P k) k) as [[s' o]|] eqn:E; simpl; [|done]. by rewrite HL by (by eapply weighed_get_mut).
  - destruct (sh_peek_mut s (hash P k) k) as [o|] eqn:E; simpl; [|done]. by rewrite HL by (by eapply weighed_peek_mut).
  - destruct (upsert_placeholder s (hash P k) k) as [[s' [[i v]|[p b]]]|]; simpl; [|destruct w as [v|]|done].
    + by rewrite HL by apply weighed_token.
    + destruct (u_fill s' rs p v false RUnit true) as [[s2 o]|]; simpl; [|done]. by rewrite HL by apply weighed_token.
    + done.
  - destruct (upsert_placeholder s (hash P k) k) as [[s' [[i v]|[p b]]]|]; simpl; [|done|done].
    by rewrite HL by apply weighed_token.
Qed.
End same.

Section seen.
Context {P : Params} (LW : Lawful P).
Notation shard := (shard P).
Implicit Types (s : shard).

(* writing into an item *)
Lemma write_peek s t r r' k : Inv s → its_of s !! t = Some (Some (Resident r)) → r_key r' = r_key r →
  sh_peek (set_entry s t (Resident r')) (hash P k) k = Ok (if keqb P k (r_key r) then Some (r_val r') else value_of k (sh_iter s)).
Proof.
  intros HI Ht Hk. pose proof (its_set_entry s t (Resident r') _ Ht) as Hit.
  assert (t < length (its_of s)) as Hlt by (by eapply lookup_lt_Some).
  assert (∀ i e, i ≠ t → its_of s !! i = Some (Some e) → its_of (set_entry s t (Resident r')) !! i = Some (Some e)) as Hne.
  { intros i e Hi He. rewrite Hit. by rewrite list_lookup_insert_ne. }
  assert (its_of (set_entry s t (Resident r')) !! t = Some (Some (Resident r'))) as Ht' by (rewrite Hit; by apply list_lookup_insert).
  assert (search_resident (set_entry s t (Resident r')) (hash P k) k =
    let! o := search_resident s (hash P k) k in Ok (match o with Some (i, r0) => Some (i, if decide (i = t) then r' else r0) | None => None end)) as E.
  { unfold search_resident. assert (tfind P (sh_map (set_entry s t (Resident r'))) (hash P k) (res_match (set_entry s t (Resident r')) k) =
      tfind P (sh_map s) (hash P k) (res_match s k)) as ->.
    { unfold tfind. change (sh_map (set_entry s t (Resident r'))) with (sh_map s).
      assert (∀ i, i ∈ probe P (sh_map s) (hash P k) → mapped s i) as Hl by (intros i Hin; by apply (probe_sound _ LW) in Hin).
      revert Hl. induction (probe P (sh_map s) (hash P k)) as [|i l IH]; intros Hl; simpl; [done|].
      assert (res_match (set_entry s t (Resident r')) k i = res_match s k i) as ->.
      { unfold res_match. destruct (decide (i = t)) as [->|Hi].
        - rewrite (entry_at_ok _ _ _ Ht), (entry_at_ok _ _ _ Ht'). simpl. by rewrite Hk.
        - assert (mapped s i) as Hm by (apply Hl; left). pose proof HI as (rs & fl & HI0).
          destruct (m_tok _ _ _ _ (i_map _ _ _ HI0) Hm) as (x & Hx & _). by rewrite (entry_at_ok _ _ _ Hx), (entry_at_ok _ _ _ (Hne _ _ Hi Hx)). }
      rewrite IH by (intros; apply Hl; by right). done. }
    destruct (tfind_res LW s k HI) as ([i|] & -> & Ho); simpl; [|done]. destruct Ho as (r0 & Hr0 & _).
    rewrite (entry_at_ok _ _ _ Hr0). simpl. destruct (decide (i = t)) as [->|Hi]; [by rewrite (entry_at_ok _ _ _ Ht')|].
    by rewrite (entry_at_ok _ _ _ (Hne _ _ Hi Hr0)). }
  unfold sh_peek. rewrite E. destruct (search_resident_spec LW s k HI) as ([[i r0]|] & -> & Ho); simpl; f_equal.
  - destruct Ho as (Hi & Hki & Hf). unfold value_of. rewrite Hf. simpl. destruct (decide (i = t)) as [->|Hi2].
    + rewrite Ht in Hi. simplify_eq. by rewrite Hki.
    + destruct (keqb P k (r_key r)) eqn:Hkr; [|done]. exfalso. apply Hi2.
      pose proof (res_mapped _ _ _ HI Hi). pose proof (res_mapped _ _ _ HI Ht).
      destruct HI as (rs & fl & HI). eapply (m_uniq _ _ _ (i_map _ _ _ HI)); [done|done|exact Hi|exact Ht|done|done|].
      by rewrite <-(keqb_cong LW _ _ _ Hki).
  - destruct Ho as [Hno Hf]. unfold value_of. rewrite Hf. by rewrite (Hno _ _ Ht).
Qed.
Lemma find_upd k k' f c : find_key k' (Spec.upd k f c) = (λ p, if keqb P k p.1 then (p.1, f p.2) else p) <$> find_key k' c.
Proof.
  induction c as [|p c IH]; [done|]. unfold find_key, Spec.upd in *. cbn [map find List.find].
  destruct (keqb P k p.1) eqn:E; cbn [fst]; destruct (keqb P k' p.1); simpl; rewrite ?E; done || exact IH.
Qed.
(* what a forgotten reference leaves *)
Lemma leak_seen s k o f : Inv s → refers s k o →
  ∃ s', leak_refmut s o f = Ok (s', value_of k (sh_iter s)) ∧ sh_iter s' ≡ₚ Spec.upd k f (sh_iter s) ∧ sh_len s' = sh_len s ∧ sh_weight s' = sh_weight s ∧
    (∀ k', sh_peek s' (hash P k') k' = Ok (value_of k' (Spec.upd k f (sh_iter s)))).
Proof.
  intros HI Hr. unfold leak_refmut. rewrite (seen_refers LW s k o HI Hr). destruct o as [[t w]|]; simpl in *.
  2:{ rewrite upd_none by done. exists s. split_and!; try done. intros k'. by apply (sh_peek_spec LW). }
  destruct Hr as (r & Ht & Hk & ->). pose proof (find_iter LW s t r k HI Ht Hk) as Hf.
  destruct (get_live _ _ _ Ht) as (n & Hg & _). unfold refmut_write. rewrite Hg. simpl.
  set (r' := set_rval r (f (r_val r))). exists (set_entry s t (Resident r')). split; [done|]. split_and!; [|done|done|].
  - rewrite sh_iter_kvs, (its_set_entry s t (Resident r') _ Ht). by apply (upd_kvs LW s t r k f).
  - intros k'. rewrite (write_peek s t r r' k' HI Ht eq_refl). f_equal. unfold value_of. rewrite find_upd.
    destruct (keqb P k' (r_key r)) eqn:Hk'.
    + rewrite (find_iter LW s t r k' HI Ht Hk'). simpl. by rewrite Hk.
    + destruct (find_key k' (sh_iter s)) as [p|] eqn:E; simpl; [|done]. apply find_key_Some in E as [_ Hp].
      destruct (keqb P k p.1) eqn:Hkp; [|done]. exfalso. rewrite (keqb_cong LW _ _ _ Hkp) in Hk. rewrite (keqb_cong LW _ _ _ Hp) in Hk'. congruence.
Qed.
End seen.

Section heal.
Context {P : Params} (LW : Lawful P).
Notation shard := (shard P).
Implicit Types (s : shard).
Lemma cleared_inv s : Inv (sh_clear s).
Proof.
  exists (λ _, []), []. split; simpl; [apply RI_new|by intros []|apply memb_nil| |lia|apply MI_nil].
  split; [by intros []|by intros []|done].
Qed.
Lemma run_inv s h s' os : Inv s → run s h = Ok (s', os) → Inv s' ∧ cfg s' = cfg s.
Proof.
  revert s os. induction h as [|m h IH]; intros s os HI; simpl; [by intros [= <- _]|].
  pose proof (exec_spec LW s m HI) as H. destruct (exec s m) as [[s1 o]|]; simpl in *; [|done].
  destruct (run s1 h) as [[s2 os2]|] eqn:E; simpl; [|done]. intros [= <- _]. destruct H as [HI' Hc _ _ _ _ _ _].
  destruct (IH s1 _ HI' E) as [? ->]. done.
Qed.
End heal.
