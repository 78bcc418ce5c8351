(* Lemmas about the specification vocabulary, and about contents read off a slab. *)
From Verif Require Export Spec ShardInv.

Section specproofs.
Context {P : Params} (LW : Lawful P).
Notation K := (K P). Notation V := (V P).
Notation entry := (entry P). Notation shard := (shard P).
Implicit Types (c : contents P) (k : K) (v : V) (its : list (option entry)).

Lemma evicts_perm_l rs c c2 es rs' c' : c ≡ₚ c2 → evicts rs c2 es rs' c' → evicts rs c es rs' c'.
Proof.
  intros Hp H. inversion H; subst.
  - apply ev_done. by rewrite Hp.
  - eapply ev_keep; eauto. by rewrite Hp.
  - eapply ev_drop; eauto. by rewrite Hp.
Qed.
Lemma evicts_perm_r rs c es rs' c' c2 : evicts rs c es rs' c' → c' ≡ₚ c2 → evicts rs c es rs' c2.
Proof.
  intros H. revert c2. induction H; intros c2 Hp.
  - apply ev_done. by etrans.
  - eapply ev_keep; eauto.
  - eapply ev_drop; eauto.
Qed.
Lemma evicts_trans rs c es rs' c' es2 rs2 c2 :
  evicts rs c es rs' c' → evicts rs' c' es2 rs2 c2 → evicts rs c (es ++ es2) rs2 c2.
Proof.
  intros H. revert es2 rs2 c2. induction H; intros es2 rs2 c2 Hnext; simpl.
  - by eapply evicts_perm_l.
  - eapply ev_keep; eauto.
  - eapply ev_drop; eauto.
Qed.
Lemma evicts_refl rs c : evicts rs c [] rs c.
Proof. by apply ev_done. Qed.

Global Instance wsum_perm : Proper ((≡ₚ) ==> eq) (wsum (P:=P)).
Proof. intros c c' H. unfold wsum. induction H; simpl in *; lia. Qed.
Lemma wsum_cons k v c : wsum ((k, v) :: c) = (weight P k v + wsum c)%N.
Proof. done. Qed.
Lemma wsum_app c c' : wsum (c ++ c') = (wsum c + wsum c')%N.
Proof. induction c as [|[k v] c IH]; simpl; [done|]. unfold wsum in *. simpl. lia. Qed.
Global Instance uwsum_perm : Proper ((≡ₚ) ==> eq) (uwsum (P:=P)).
Proof. intros c c' H. unfold uwsum. by rewrite H. Qed.

Lemma evicts_wsum rs c es rs' c' : evicts rs c es rs' c' → (wsum c' ≤ wsum c)%N.
Proof.
  induction 1 as [rs c c' H|rs c k v rest rs1 v' es rs' c' H Hp Hw Hb Hw' He IH|rs c k v rest rs1 v' es rs' c' H Hp Hw Hb Hw' He IH].
  - by rewrite H.
  - rewrite H. rewrite wsum_cons in *. lia.
  - rewrite H. rewrite wsum_cons in *. lia.
Qed.

(* ---- contents of a slab ---- *)
Definition okv (o : option entry) : list (K * V) :=
  match o with Some (Resident r) => [(r_key r, r_val r)] | _ => [] end.
Definition kvs its : contents P := its ≫= okv.

Lemma sh_iter_kvs (s : shard) : sh_iter s = kvs (its_of s).
Proof.
  unfold sh_iter, kvs, its_of. rewrite slab_iter_items.
  induction (items (sh_ents s)) as [|o l IH]; csimpl; [done|].
  destruct o as [[r|p|h]|]; csimpl; rewrite <-IH; done.
Qed.

Lemma kvs_split its t o : its !! t = Some o → kvs its ≡ₚ okv o ++ kvs (<[t := None]> its).
Proof.
  revert t. induction its as [|x its IH]; intros [|t] H; simplify_eq/=.
  - done.
  - change (kvs (x :: its)) with (okv x ++ kvs its).
    change (kvs (x :: <[t:=None]> its)) with (okv x ++ kvs (<[t:=None]> its)).
    rewrite (IH _ H). rewrite !(assoc_L (++)). f_equiv. apply Permutation_app_comm.
Qed.
Lemma kvs_insert its t o o' : its !! t = Some o → kvs (<[t := o']> its) ≡ₚ okv o' ++ kvs (<[t := None]> its).
Proof.
  intros H. rewrite (kvs_split (<[t:=o']> its) t o').
  - by rewrite list_insert_insert.
  - apply list_lookup_insert. by eapply lookup_lt_Some.
Qed.
Lemma kvs_same its t o o' : its !! t = Some o → okv o = okv o' → kvs (<[t := o']> its) = kvs its.
Proof.
  revert t. induction its as [|x its IH]; intros [|t] H Ho; simplify_eq/=.
  - unfold kvs; simpl. congruence.
  - unfold kvs in *; simpl. f_equal. by apply IH.
Qed.
Lemma kvs_app its o : kvs (its ++ [o]) = kvs its ++ okv o.
Proof. unfold kvs. rewrite bind_app. simpl. by rewrite app_nil_r. Qed.

Lemma kvs_elem its k v :
  (k, v) ∈ kvs its ↔ ∃ t r, its !! t = Some (Some (Resident r)) ∧ r_key r = k ∧ r_val r = v.
Proof.
  unfold kvs. rewrite elem_of_list_bind. split.
  - intros (o & Ho & Hin). apply elem_of_list_lookup in Hin as [t Ht].
    destruct o as [[r|p|h]|]; simpl in Ho; try by apply elem_of_nil in Ho.
    apply elem_of_list_singleton in Ho. simplify_eq. eauto.
  - intros (t & r & Ht & <- & <-). exists (Some (Resident r)). split; [by left|].
    by eapply elem_of_list_lookup_2.
Qed.

Lemma wsum_esum its : wsum (kvs its) = (esum (wof Hot) its + esum (wof Cold) its)%N.
Proof.
  induction its as [|o its IH]; [done|]. change (kvs (o :: its)) with (okv o ++ kvs its). rewrite wsum_app, IH.
  unfold esum; simpl. destruct o as [[[k v st x]|p|h]|]; simpl; try lia.
  unfold wsum; simpl. unfold rweight; simpl. destruct st; simpl; lia.
Qed.
Lemma length_esum its : N.of_nat (length (kvs its)) = (esum (nof Hot) its + esum (nof Cold) its)%N.
Proof.
  induction its as [|o its IH]; [done|]. change (kvs (o :: its)) with (okv o ++ kvs its). rewrite app_length, Nat2N.inj_add, IH.
  unfold esum; simpl. destruct o as [[[k v st x]|p|h]|]; simpl; try lia. destruct st; simpl; lia.
Qed.
End specproofs.
