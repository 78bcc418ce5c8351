(* Lookups: searching the table agrees with the contents. *)
From Verif Require Export ShardEvict.

Section lookup.
Context {P : Params} (LW : Lawful P).
Notation K := (K P). Notation V := (V P).
Notation entry := (entry P). Notation shard := (shard P). Notation resident := (resident P).
Implicit Types (s : shard) (l : lcs P) (e : entry) (r : resident) (its : list (option entry)) (k : K) (v : V) (c : contents P).

(* ---- contents with unique keys ---- *)
Lemma keqb_symb k k' : keqb P k k' = keqb P k' k.
Proof.
  destruct (keqb P k k') eqn:E1, (keqb P k' k) eqn:E2; try done.
  - apply (keqb_sym _ LW) in E1. congruence.
  - apply (keqb_sym _ LW) in E2. congruence.
Qed.
Lemma keqb_cong k1 k2 k3 : keqb P k1 k2 = true → keqb P k1 k3 = keqb P k2 k3.
Proof.
  intros H. destruct (keqb P k2 k3) eqn:E2.
  - by eapply (keqb_trans _ LW).
  - destruct (keqb P k1 k3) eqn:E1; [|done]. rewrite <-E2. symmetry.
    eapply (keqb_trans _ LW); [by apply (keqb_sym _ LW)|done].
Qed.

Lemma ukeys_alt c : ukeys c ↔ ∀ i j p q, c !! i = Some p → c !! j = Some q → keqb P p.1 q.1 = true → i = j.
Proof.
  induction c as [|p c IH]; simpl.
  - split; [|done]. intros _ i j p q Hi. by destruct i.
  - rewrite IH, Forall_forall. split.
    + intros [H1 H2] [|i] [|j] p0 q Hi Hj Hk; simplify_eq/=; [done| | |f_equal; by eapply H2].
      * rewrite H1 in Hk; [done|by eapply elem_of_list_lookup_2].
      * rewrite keqb_symb, H1 in Hk; [done|by eapply elem_of_list_lookup_2].
    + intros H. split.
      * intros q [j Hj]%elem_of_list_lookup. destruct (keqb P p.1 q.1) eqn:E; [|done].
        by specialize (H 0 (S j) p q eq_refl Hj E).
      * intros i j p0 q Hi Hj Hk. by specialize (H (S i) (S j) p0 q Hi Hj Hk) as [= ->].
Qed.
Global Instance ukeys_perm : Proper ((≡ₚ) ==> iff) (ukeys (P:=P)).
Proof.
  assert (∀ c c' : contents P, c ≡ₚ c' → ukeys c → ukeys c') as H.
  { intros c c' Hp. induction Hp as [|x c c' Hp IH|x y c|c1 c2 c3 _ IH1 _ IH2]; simpl; auto.
    - intros [H1 H2]. split; [by rewrite <-Hp|auto].
    - intros [H1 [H2 H3]]. apply Forall_cons in H1 as [H1 H1']. split_and!; [|done|done].
      apply Forall_cons. split; [by rewrite keqb_symb|done]. }
  intros c c' Hp. split; apply H; done.
Qed.

Lemma find_key_Some k c p : find_key k c = Some p → p ∈ c ∧ keqb P k p.1 = true.
Proof.
  induction c as [|q c IH]; simpl; [done|]. destruct (keqb P k q.1) eqn:E.
  - intros [= ->]. split; [left|done].
  - intros H. destruct (IH H). split; [by right|done].
Qed.
Lemma find_key_None k c : find_key k c = None ↔ ∀ p, p ∈ c → keqb P k p.1 = false.
Proof.
  induction c as [|q c IH]; simpl.
  - split; [|done]. intros _ p Hp. by apply elem_of_nil in Hp.
  - destruct (keqb P k q.1) eqn:E.
    + split; [done|]. intros H. rewrite H in E; [done|left].
    + rewrite IH. setoid_rewrite elem_of_cons. naive_solver.
Qed.
Lemma find_key_in k c p : ukeys c → p ∈ c → keqb P k p.1 = true → find_key k c = Some p.
Proof.
  intros Hu Hp Hk. destruct (find_key k c) as [q|] eqn:E.
  - apply find_key_Some in E as [Hq Hkq]. f_equal.
    apply elem_of_list_lookup in Hp as [i Hi], Hq as [j Hj].
    assert (i = j) as ->; [|congruence]. eapply ukeys_alt; [done|done|done|].
    eapply (keqb_trans _ LW); [|done]. by apply (keqb_sym _ LW).
  - apply find_key_None with (p := p) in E; [congruence|done].
Qed.
Lemma find_key_perm k c c' : ukeys c → c ≡ₚ c' → find_key k c = find_key k c'.
Proof.
  intros Hu Hp. destruct (find_key k c') as [p|] eqn:E.
  - apply find_key_Some in E as [Hin Hk]. apply find_key_in; [done|by rewrite Hp|done].
  - apply find_key_None. intros p Hin. rewrite Hp in Hin. by eapply find_key_None in E.
Qed.
Lemma find_key_cong k k' c : keqb P k k' = true → find_key k c = find_key k' c.
Proof.
  intros H. induction c as [|p c IH]; simpl; [done|]. by rewrite (keqb_cong _ _ _ H), IH.
Qed.

(* ---- contents of a shard ---- *)
Definition mapped s t : Prop := t ∈ (tpairs (sh_map s)).*2.
Definition absent s k : Prop :=
  ∀ t e k', mapped s t → its_of s !! t = Some (Some e) → ekey e = Some k' → keqb P k k' = false.

Lemma res_mapped s t r : Inv s → its_of s !! t = Some (Some (Resident r)) → mapped s t.
Proof.
  intros (rs & fl & HI) Ht. eapply elem_snd. by apply (m_all _ _ _ (i_map _ _ _ HI) _ _ Ht).
Qed.
Lemma ghost_mapped s t h : Inv s → its_of s !! t = Some (Some (Ghost h)) → mapped s t.
Proof.
  intros (rs & fl & HI) Ht. eapply elem_snd. by apply (m_all _ _ _ (i_map _ _ _ HI) _ _ Ht).
Qed.

Lemma kvs_lookup_inj its i p : kvs its !! i = Some p →
  ∃ t r, its !! t = Some (Some (Resident r)) ∧ p = (r_key r, r_val r) ∧ length (kvs (take t its)) = i.
Proof.
  revert i. induction its as [|o its IH]; intros i Hi; [done|].
  change (kvs (o :: its)) with (okv o ++ kvs its) in Hi.
  apply lookup_app_Some in Hi as [Hi|[Hge Hi]].
  - destruct o as [[r| |]|]; simpl in Hi; try done. destruct i; simplify_eq/=. exists 0, r. done.
  - destruct (IH _ Hi) as (t & r & Ht & -> & Hl). exists (S t), r. split_and!; [done|done|].
    simpl. change (kvs (o :: take t its)) with (okv o ++ kvs (take t its)). rewrite app_length. lia.
Qed.

Lemma inv_ukeys s : Inv s → ukeys (sh_iter s).
Proof.
  intros HI. apply ukeys_alt. rewrite sh_iter_kvs. intros i j p q Hi Hj Hk.
  apply kvs_lookup_inj in Hi as (t & r & Ht & -> & <-). apply kvs_lookup_inj in Hj as (t' & r' & Ht' & -> & <-).
  simpl in Hk. assert (t = t') as ->; [|done].
  pose proof (res_mapped _ _ _ HI Ht). pose proof (res_mapped _ _ _ HI Ht').
  destruct HI as (rs & fl & HI). by eapply (m_uniq _ _ _ (i_map _ _ _ HI)).
Qed.

Lemma iter_elem s k v : (k, v) ∈ sh_iter s ↔ ∃ t r, its_of s !! t = Some (Some (Resident r)) ∧ r_key r = k ∧ r_val r = v.
Proof. rewrite sh_iter_kvs. apply kvs_elem. Qed.

Lemma find_iter s t r k : Inv s → its_of s !! t = Some (Some (Resident r)) → keqb P k (r_key r) = true →
  find_key k (sh_iter s) = Some (r_key r, r_val r).
Proof.
  intros HI Ht Hk. apply find_key_in; [by apply inv_ukeys| |done]. apply iter_elem. eauto.
Qed.
Lemma absent_find s k : Inv s → absent s k → find_key k (sh_iter s) = None.
Proof.
  intros HI Ha. apply find_key_None. intros [k' v'] Hin. apply iter_elem in Hin as (t & r & Ht & <- & <-).
  simpl. eapply Ha; [by eapply res_mapped|done|done].
Qed.

(* ---- searching ---- *)
Lemma tok_in_probe s t e k k' : Inv s → mapped s t → its_of s !! t = Some (Some e) → ekey e = Some k' →
  keqb P k k' = true → t ∈ probe P (sh_map s) (hash P k).
Proof.
  intros (rs & fl & HI) Hm Ht He Hk. apply (probe_complete _ LW).
  destruct (m_tok _ _ _ _ (i_map _ _ _ HI) Hm) as (e' & He' & Hin). rewrite Ht in He'. simplify_eq.
  rewrite (hash_keqb _ LW _ _ Hk). replace (hash P k') with (hash_of_entry e'); [done|].
  by destruct e'; simplify_eq/=.
Qed.

Lemma search_loop_spec s h k lst hm : Inv s → (∀ t, t ∈ lst → mapped s t) →
  (∀ t, hm = Some t → mapped s t ∧ its_of s !! t = Some (Some (Ghost h))) →
  ∃ o, search_loop s h k lst hm = Ok o ∧
    match o with
    | Some t => mapped s t ∧ ∃ e, its_of s !! t = Some (Some e) ∧
        ((∃ k', ekey e = Some k' ∧ keqb P k k' = true) ∨
         (e = Ghost h ∧ ∀ t e k', t ∈ lst → its_of s !! t = Some (Some e) → ekey e = Some k' → keqb P k k' = false))
    | None => hm = None ∧ ∀ t e, t ∈ lst → its_of s !! t = Some (Some e) →
         e ≠ Ghost h ∧ ∀ k', ekey e = Some k' → keqb P k k' = false
    end.
Proof.
  intros HI. revert hm. induction lst as [|t lst IH]; intros hm Hl Hhm; simpl.
  - exists hm. split; [done|]. destruct hm as [t|].
    + destruct (Hhm t eq_refl) as [Hm Hg]. split; [done|]. exists (Ghost h). split; [done|].
      right. split; [done|]. intros t' e k' Hin. by apply elem_of_nil in Hin.
    + split; [done|]. intros t e Hin. by apply elem_of_nil in Hin.
  - assert (mapped s t) as Hmt by (apply Hl; left).
    destruct HI as (rs & fl & HI).
    destruct (m_tok _ _ _ _ (i_map _ _ _ HI) Hmt) as (e & He & _).
    assert (Inv s) as HI0 by (by exists rs, fl). clear HI. rename HI0 into HI.
    rewrite (entry_at_ok _ _ _ He). simpl.
    assert (∀ t, t ∈ lst → mapped s t) as Hl' by (intros; apply Hl; by right).
    (* the general step *)
    assert (∀ hm', (∀ k', ekey e = Some k' → keqb P k k' = false) →
      (hm' = None → hm = None ∧ e ≠ Ghost h) →
      (∀ t, hm' = Some t → mapped s t ∧ its_of s !! t = Some (Some (Ghost h))) →
      ∃ o, search_loop s h k lst hm' = Ok o ∧
      match o with
      | Some t' => mapped s t' ∧ ∃ e, its_of s !! t' = Some (Some e) ∧
          ((∃ k', ekey e = Some k' ∧ keqb P k k' = true) ∨
           (e = Ghost h ∧ ∀ t0 e k', t0 ∈ t :: lst → its_of s !! t0 = Some (Some e) → ekey e = Some k' → keqb P k k' = false))
      | None => hm = None ∧ ∀ t0 e, t0 ∈ t :: lst → its_of s !! t0 = Some (Some e) →
           e ≠ Ghost h ∧ ∀ k', ekey e = Some k' → keqb P k k' = false
      end) as Hstep.
    { intros hm' Hno Hn Hhm'. destruct (IH hm' Hl' Hhm') as (o & -> & Ho). exists o. split; [done|].
      destruct o as [t'|].
      - destruct Ho as (Hm' & e' & He' & Hc). split; [done|]. exists e'. split; [done|].
        destruct Hc as [Hc|[-> Hc]]; [by left|]. right. split; [done|].
        intros t0 e0 k' [->|Hin]%elem_of_cons H1 H2; [|by eapply Hc]. rewrite He in H1. simplify_eq. by apply Hno.
      - destruct Ho as [-> Ho]. destruct (Hn eq_refl) as [-> Hng]. split; [done|].
        intros t0 e0 [->|Hin]%elem_of_cons H1; [|by eapply Ho]. rewrite He in H1. simplify_eq. done. }
    destruct e as [r|p|g]; simpl in *.
    + destruct (keqb P k (r_key r)) eqn:E.
      * exists (Some t). split; [done|]. split; [done|]. exists (Resident r). split; [done|]. left. eauto.
      * apply Hstep; [by intros k' [= <-]|done|done].
    + destruct (keqb P k (p_key p)) eqn:E.
      * exists (Some t). split; [done|]. split; [done|]. exists (Placeholder p). split; [done|]. left. eauto.
      * apply Hstep; [by intros k' [= <-]|done|done].
    + apply Hstep; [done| |].
      * destruct (N.eqb_spec g h) as [->|Hne]; [done|]. intros ->. split; [done|]. congruence.
      * destruct (N.eqb_spec g h) as [->|Hne]; [|done]. intros t' [= <-]. done.
Qed.

(* the three outcomes of search *)
Inductive found s k : option nat → Prop :=
  | f_key t e k' : mapped s t → its_of s !! t = Some (Some e) → ekey e = Some k' → keqb P k k' = true → found s k (Some t)
  | f_ghost t : mapped s t → its_of s !! t = Some (Some (Ghost (hash P k))) → absent s k → found s k (Some t)
  | f_none : absent s k → (∀ t, its_of s !! t ≠ Some (Some (Ghost (hash P k)))) → found s k None.

Lemma search_spec s k : Inv s → ∃ o, search s (hash P k) k = Ok o ∧ found s k o.
Proof.
  intros HI. unfold search.
  destruct (search_loop_spec s (hash P k) k (probe P (sh_map s) (hash P k)) None HI) as (o & -> & Ho).
  - intros t Hin. by apply (probe_sound _ LW) in Hin.
  - done.
  - exists o. split; [done|]. destruct o as [t|].
    + destruct Ho as (Hm & e & He & [(k' & Hk & Hkk)|[-> Hno]]).
      * by eapply f_key.
      * apply f_ghost; [done|done|]. intros t' e' k' Hm' He' Hk'.
        destruct (keqb P k k') eqn:E; [|done]. rewrite <-E. eapply Hno; [|done|done]. by eapply tok_in_probe.
    + destruct Ho as [_ Hno]. apply f_none.
      * intros t' e' k' Hm' He' Hk'. destruct (keqb P k k') eqn:E; [|done]. rewrite <-E.
        assert (t' ∈ probe P (sh_map s) (hash P k)) as Hin by (by eapply tok_in_probe).
        destruct (Hno t' e' Hin He') as [_ H]. by apply H.
      * intros t Hg. assert (t ∈ probe P (sh_map s) (hash P k)) as Hin.
        { apply (probe_complete _ LW). destruct HI as (rs & fl & HI). by apply (m_all _ _ _ (i_map _ _ _ HI) _ _ Hg). }
        by destruct (Hno t _ Hin Hg).
Qed.

Definition noresident s k : Prop := ∀ t r, its_of s !! t = Some (Some (Resident r)) → keqb P k (r_key r) = false.

Lemma tfind_res s k : Inv s →
  ∃ o, tfind P (sh_map s) (hash P k) (res_match s k) = Ok o ∧
    match o with
    | Some t => ∃ r, its_of s !! t = Some (Some (Resident r)) ∧ keqb P k (r_key r) = true
    | None => noresident s k
    end.
Proof.
  intros HI. unfold tfind.
  set (f := λ t, match its_of s !! t with Some (Some (Resident r)) => keqb P k (r_key r) | _ => false end).
  rewrite (scan_ok _ _ f).
  - eexists. split; [done|]. destruct (find _ _) as [t|] eqn:E.
    + apply List.find_some in E as [_ E]. unfold f in E.
      destruct (its_of s !! t) as [[[r| |]|]|]; try done. eauto.
    + intros t r Ht. destruct (keqb P k (r_key r)) eqn:Ek; [|done].
      assert (t ∈ probe P (sh_map s) (hash P k)) as Hin.
      { eapply tok_in_probe; [done|by eapply res_mapped|done|done|done]. }
      apply elem_of_list_In in Hin. apply (List.find_none _ _ E) in Hin. unfold f in Hin. rewrite Ht in Hin. congruence.
  - intros t Hin. apply (probe_sound _ LW) in Hin. destruct HI as (rs & fl & HI).
    destruct (m_tok _ _ _ _ (i_map _ _ _ HI) Hin) as (e & He & _). unfold res_match.
    rewrite (entry_at_ok _ _ _ He). simpl. unfold f. rewrite He. by destruct e.
Qed.

Lemma search_resident_spec s k : Inv s →
  ∃ o, search_resident s (hash P k) k = Ok o ∧
    match o with
    | Some (t, r) => its_of s !! t = Some (Some (Resident r)) ∧ keqb P k (r_key r) = true ∧
        find_key k (sh_iter s) = Some (r_key r, r_val r)
    | None => noresident s k ∧ find_key k (sh_iter s) = None
    end.
Proof.
  intros HI. unfold search_resident. destruct (tfind_res s k HI) as (o & -> & Ho). simpl.
  destruct o as [t|].
  - destruct Ho as (r & Ht & Hk). rewrite (entry_at_ok _ _ _ Ht). simpl. eexists. split; [done|].
    split_and!; [done|done|]. by eapply find_iter.
  - eexists. split; [done|]. split; [done|]. apply find_key_None. intros [k' v'] Hin.
    apply iter_elem in Hin as (t & r & Ht & <- & <-). by eapply Ho.
Qed.
End lookup.
