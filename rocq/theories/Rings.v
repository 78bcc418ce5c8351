(* Several disjoint rings threaded through one slab: structural invariant and its
   preservation by the slab operations. *)
From Verif Require Export SlabProofs.

Section rings.
Context {T R : Type} `{!EqDecision R}.
Implicit Types (sl : slab T) (rs : R → list nat) (r : R) (t : nat) (fl A B L : list nat).

Definition rupd rs r L : R → list nat := λ r', if decide (r' = r) then L else rs r'.
Lemma rupd_eq rs r L : rupd rs r L r = L.
Proof. unfold rupd. by rewrite decide_True. Qed.
Lemma rupd_ne rs r r' L : r' ≠ r → rupd rs r L r' = rs r'.
Proof. intros. unfold rupd. by rewrite decide_False. Qed.

Record RI sl rs fl : Prop := {
  ri_ring : ∀ r, ring sl (rs r);
  ri_disj : ∀ r r' t, t ∈ rs r → t ∈ rs r' → r = r';
  ri_live : ∀ r t, t ∈ rs r → live sl t;
  ri_self : ∀ t, live sl t → (∀ r, t ∉ rs r) → lnk sl t t;
  ri_slab : slab_ok sl fl;
}.

Lemma live_items sl sl' t : items sl' = items sl → live sl' t ↔ live sl t.
Proof. intros H. unfold live. by rewrite H. Qed.

Lemma RI_NoDup sl rs fl r : RI sl rs fl → NoDup (rs r).
Proof. intros H. by destruct (ri_ring _ _ _ H r) as (? & _). Qed.

Lemma RI_link sl rs fl t r :
  RI sl rs fl → live sl t → (∀ r, t ∉ rs r) →
  ∃ sl', slab_link sl t (head (rs r)) = Ok (sl', default t (head (rs r))) ∧
    items sl' = items sl ∧ RI sl' (rupd rs r (rs r ++ [t])) fl.
Proof.
  intros [Hr Hd Hl Hs Hok] Ht Hni.
  destruct (link_spec sl t (rs r)) as (sl' & Heq & Hit & Hnf & Hring & Hfr); auto.
  { intros t' Ht'. by eapply Hl. }
  exists sl'. split_and!; auto. split.
  - intros r'. destruct (decide (r' = r)) as [->|Hne]; [by rewrite rupd_eq|].
    rewrite rupd_ne by done. eapply ring_frame; [|apply Hr].
    intros t' Ht'. apply Hfr.
    + intros Hin. apply Hne. by eapply Hd.
    + intros ->. by eapply Hni.
  - intros r1 r2 t'. destruct (decide (r1 = r)) as [->|H1], (decide (r2 = r)) as [->|H2];
      rewrite ?rupd_eq, ?rupd_ne by done; auto.
    + rewrite elem_of_app, elem_of_list_singleton. intros [Hin| ->] Hin2; [by eapply Hd|].
      exfalso; by eapply Hni.
    + rewrite elem_of_app, elem_of_list_singleton. intros Hin2 [Hin| ->]; [by eapply Hd|].
      exfalso; by eapply Hni.
    + apply Hd.
  - intros r' t' Hin. apply (live_items sl); [done|].
    destruct (decide (r' = r)) as [->|H1]; rewrite ?rupd_eq, ?rupd_ne in Hin by done; [|by eapply Hl].
    apply elem_of_app in Hin as [Hin| ->%elem_of_list_singleton]; [by eapply Hl|done].
  - intros t' Ht' Hn. apply (live_items sl) in Ht'; [|done].
    pose proof (Hn r) as Hnr. rewrite rupd_eq, elem_of_app, elem_of_list_singleton in Hnr.
    destruct (Hfr t') as [H1 H2]; [tauto|tauto|].
    eapply lnk_self_frame; [done|done|]. apply Hs; [done|].
    intros r'. destruct (decide (r' = r)) as [->|Hne]; [tauto|].
    specialize (Hn r'). by rewrite rupd_ne in Hn by done.
  - eapply slab_ok_frame; [done|done| |done].
    intros t' Hnl. apply Hfr; [|by intros ->].
    intros Hin. apply Hnl. by eapply Hl.
Qed.

Lemma RI_unlink sl rs fl t r A B :
  RI sl rs fl → rs r = A ++ t :: B →
  ∃ sl', slab_unlink sl t = Ok (sl', head (B ++ A)) ∧
    items sl' = items sl ∧ RI sl' (rupd rs r (B ++ A)) fl.
Proof.
  intros [Hr Hd Hl Hs Hok] HAB.
  destruct (unlink_spec sl t A B) as (sl' & Heq & Hit & Hnf & Hring & Hself & Hfr).
  { rewrite <-HAB. apply Hr. }
  { intros t' Ht'. eapply Hl. by rewrite HAB. }
  exists sl'. split_and!; auto.
  assert (∀ t', t' ∈ B ++ A → t' ∈ rs r) as Hsub.
  { intros t'. rewrite HAB, !elem_of_app, elem_of_cons. tauto. }
  split.
  - intros r'. destruct (decide (r' = r)) as [->|Hne]; [by rewrite rupd_eq|].
    rewrite rupd_ne by done. eapply ring_frame; [|apply Hr].
    intros t' Ht'. apply Hfr. rewrite <-HAB. intros Hin. apply Hne. by eapply Hd.
  - intros r1 r2 t'. destruct (decide (r1 = r)) as [->|H1], (decide (r2 = r)) as [->|H2];
      rewrite ?rupd_eq, ?rupd_ne by done; auto.
    + intros ? ?. apply (Hd _ _ t'); auto.
    + intros ? ?. apply (Hd _ _ t'); auto.
    + apply Hd.
  - intros r' t' Hin. apply (live_items sl); [done|].
    destruct (decide (r' = r)) as [->|H1]; rewrite ?rupd_eq, ?rupd_ne in Hin by done; eapply Hl; eauto.
  - intros t' Ht' Hn. apply (live_items sl) in Ht'; [|done].
    pose proof (Hn r) as Hnr. rewrite rupd_eq in Hnr.
    destruct (decide (t' = t)) as [->|Hne]; [done|].
    assert (t' ∉ rs r) as Hnr2.
    { rewrite HAB, elem_of_app, elem_of_cons. rewrite elem_of_app in Hnr. tauto. }
    destruct (Hfr t') as [H1 H2]; [by rewrite <-HAB|].
    eapply lnk_self_frame; [done|done|]. apply Hs; [done|].
    intros r'. destruct (decide (r' = r)) as [->|Hne']; [done|].
    specialize (Hn r'). by rewrite rupd_ne in Hn by done.
  - eapply slab_ok_frame; [done|done| |done].
    intros t' Hnl. apply Hfr. rewrite <-HAB.
    intros Hin. apply Hnl. by eapply Hl.
Qed.

Lemma live_insert_None sl sl' t t' :
  items sl' = <[t := None]> (items sl) → live sl' t' ↔ live sl t' ∧ t' ≠ t.
Proof.
  intros H. unfold live. rewrite H. split.
  - intros [x Hx]. destruct (decide (t' = t)) as [->|Hne].
    + exfalso. destruct (decide (t < length (items sl))).
      * rewrite list_lookup_insert in Hx by done. done.
      * apply lookup_lt_Some in Hx. rewrite insert_length in Hx. done.
    + rewrite list_lookup_insert_ne in Hx by done. eauto.
  - intros [[x Hx] Hne]. exists x. by rewrite list_lookup_insert_ne.
Qed.

Lemma RI_remove sl rs fl t r A B x :
  RI sl rs fl → rs r = A ++ t :: B → items sl !! t = Some (Some x) →
  ∃ sl', slab_remove sl t = Ok (sl', Some (x, head (B ++ A))) ∧
    items sl' = <[t := None]> (items sl) ∧ RI sl' (rupd rs r (B ++ A)) (t :: fl).
Proof.
  intros [Hr Hd Hl Hs Hok] HAB Hx.
  destruct (remove_spec sl t A B x fl) as (sl' & Heq & Hit & Hring & Hok' & Hfr); [| |done|done|].
  { rewrite <-HAB. apply Hr. }
  { intros t' Ht'. eapply Hl. by rewrite HAB. }
  exists sl'. split_and!; auto.
  assert (NoDup (A ++ t :: B)) as Hnd by (rewrite <-HAB; apply (Hr r)).
  assert (t ∉ B ++ A) as HnBA.
  { rewrite Permutation_app_comm in Hnd. simpl in Hnd. apply NoDup_cons in Hnd as [? ?]. done. }
  assert (∀ t', t' ∈ B ++ A → t' ∈ rs r) as Hsub.
  { intros t'. rewrite HAB, !elem_of_app, elem_of_cons. tauto. }
  assert (t ∈ rs r) as Htr by (rewrite HAB, elem_of_app, elem_of_cons; tauto).
  split.
  - intros r'. destruct (decide (r' = r)) as [->|Hne]; [by rewrite rupd_eq|].
    rewrite rupd_ne by done. eapply ring_frame; [|apply Hr].
    intros t' Ht'. apply Hfr. rewrite <-HAB. intros Hin. apply Hne. by eapply Hd.
  - intros r1 r2 t'. destruct (decide (r1 = r)) as [->|H1], (decide (r2 = r)) as [->|H2];
      rewrite ?rupd_eq, ?rupd_ne by done; auto.
    + intros ? ?. apply (Hd _ _ t'); auto.
    + intros ? ?. apply (Hd _ _ t'); auto.
    + apply Hd.
  - intros r' t' Hin. apply (live_insert_None sl sl' t); [done|].
    destruct (decide (r' = r)) as [->|H1]; rewrite ?rupd_eq, ?rupd_ne in Hin by done.
    + split; [eapply Hl; eauto|]. by intros ->.
    + split; [eapply Hl; eauto|]. intros ->. apply H1. by eapply Hd.
  - intros t' Ht' Hn. apply (live_insert_None sl sl' t) in Ht' as [Ht' Hne]; [|done].
    pose proof (Hn r) as Hnr. rewrite rupd_eq in Hnr.
    assert (t' ∉ rs r) as Hnr2.
    { rewrite HAB, elem_of_app, elem_of_cons. rewrite elem_of_app in Hnr. tauto. }
    destruct (Hfr t') as [H1 H2]; [by rewrite <-HAB|].
    eapply lnk_self_frame; [done|done|]. apply Hs; [done|].
    intros r'. destruct (decide (r' = r)) as [->|Hne']; [done|].
    specialize (Hn r'). by rewrite rupd_ne in Hn by done.
  - done.
Qed.

Lemma RI_remove_free sl rs fl t x :
  RI sl rs fl → (∀ r, t ∉ rs r) → items sl !! t = Some (Some x) →
  ∃ sl', slab_remove sl t = Ok (sl', Some (x, None)) ∧
    items sl' = <[t := None]> (items sl) ∧ RI sl' rs (t :: fl).
Proof.
  intros [Hr Hd Hl Hs Hok] Hni Hx.
  assert (live sl t) as Hlt by (by exists x).
  destruct (remove_spec sl t [] [] x fl) as (sl' & Heq & Hit & Hring & Hok' & Hfr); [| |done|done|].
  { simpl. apply ring_single. auto. }
  { simpl. by intros t' ->%elem_of_list_singleton. }
  exists sl'. split_and!; auto. simpl in *.
  split; auto.
  - intros r'. eapply ring_frame; [|apply Hr].
    intros t' Ht'. apply Hfr. intros ->%elem_of_list_singleton. by eapply Hni.
  - intros r' t' Hin. apply (live_insert_None sl sl' t); [done|].
    split; [by eapply Hl|]. intros ->. by eapply Hni.
  - intros t' Ht' Hn. apply (live_insert_None sl sl' t) in Ht' as [Ht' Hne]; [|done].
    destruct (Hfr t') as [H1 H2]; [by intros ->%elem_of_list_singleton|].
    eapply lnk_self_frame; [done|done|]. by apply Hs.
Qed.

Lemma RI_insert (E : fail → Prop) sl rs fl x :
  RI sl rs fl →
  ((N.of_nat (length (ents sl)) + 2 = two32)%N → fl = [] → E SlabFull) →
  wp E (slab_insert sl x) (λ res, let '(sl', t) := res in
    t = next_free sl ∧ (∀ r, t ∉ rs r) ∧
    ((fl ≠ [] ∧ items sl !! t = Some None ∧ items sl' = <[t := Some x]> (items sl))
     ∨ (fl = [] ∧ t = length (items sl) ∧ items sl' = items sl ++ [Some x])) ∧
    RI sl' rs (tail fl)).
Proof.
  intros [Hr Hd Hl Hs Hok] HE.
  eapply wp_mono; [by apply (insert_spec E sl x fl)|].
  intros [sl' t] (Ht & Hit & Hself & Hok' & Hfr).
  assert (¬ live sl t) as Hnl.
  { intros [y Hy]. destruct Hit as [(_ & H1 & _)|(_ & H1 & _)]; [congruence|].
    apply lookup_lt_Some in Hy. lia. }
  assert (∀ t', live sl t' → t' ≠ t ∧ t' < length (ents sl)) as Hlv.
  { intros t' Hlv. split; [by intros ->|]. destruct Hlv as [y Hy]. apply lookup_lt_Some in Hy.
    by rewrite items_length in Hy. }
  assert (∀ t', live sl' t' ↔ t' = t ∨ live sl t') as Hlive.
  { intros t'. destruct Hit as [(_ & H1 & Hit)|(_ & H1 & Hit)]; unfold live; rewrite Hit.
    - destruct (decide (t' = t)) as [->|Hne].
      + rewrite list_lookup_insert by (by eapply lookup_lt_Some). naive_solver.
      + rewrite list_lookup_insert_ne by done. naive_solver.
    - split.
      + intros [y Hy]. apply lookup_app_Some in Hy as [Hy|[Hge Hy]]; [right; eauto|].
        left. rewrite H1. destruct (t' - length (items sl)) eqn:E'; simpl in *; [lia|done].
      + intros [->|[y Hy]].
        * exists x. rewrite H1. rewrite lookup_app_r, Nat.sub_diag by lia. done.
        * exists y. by apply lookup_app_l_Some. }
  split_and!; [done| |done|].
  { intros r Hin. apply Hnl. by eapply Hl. }
  split.
  - intros r'. eapply ring_frame; [|apply Hr]. intros t' Ht'. apply Hfr; eapply Hlv; eauto.
  - done.
  - intros r' t' Hin. apply Hlive. right. by eapply Hl.
  - intros t' Ht' Hn. apply Hlive in Ht' as [->|Ht']; [done|].
    destruct (Hlv t' Ht'). destruct (Hfr t') as [H1 H2]; [done|done|].
    eapply lnk_self_frame; [done|done|]. by apply Hs.
  - done.
Qed.

Lemma RI_set sl rs fl t x y :
  RI sl rs fl → items sl !! t = Some (Some y) →
  items (slab_set sl t x) = <[t := Some x]> (items sl) ∧ RI (slab_set sl t x) rs fl.
Proof.
  intros [Hr Hd Hl Hs Hok] Hy.
  destruct (set_spec sl t x y Hy) as (Hit & Hnf & Hfr).
  split; [done|].
  assert (t < length (items sl)) as Hlt by (by eapply lookup_lt_Some).
  assert (∀ t', live (slab_set sl t x) t' ↔ live sl t') as Hlive.
  { intros t'. unfold live. rewrite Hit. destruct (decide (t' = t)) as [->|Hne].
    - rewrite list_lookup_insert by done. naive_solver.
    - by rewrite list_lookup_insert_ne. }
  split.
  - intros r. eapply ring_frame; [|apply Hr]. intros; apply Hfr.
  - done.
  - intros r t' Hin. apply Hlive. by eapply Hl.
  - intros t' Ht' Hn. apply Hlive in Ht'. destruct (Hfr t'). eapply lnk_self_frame; [done|done|]. by apply Hs.
  - destruct Hok as (H1 & H2 & H3). split_and!; [|done|].
    + rewrite Hnf. eapply fchain_frame; [| |done].
      * rewrite <-!items_length, Hit. by rewrite insert_length.
      * intros t' _. apply Hfr.
    + intros t'. rewrite Hit. destruct (decide (t' = t)) as [->|Hne].
      * rewrite list_lookup_insert by done. rewrite <-H3, Hy. split; [done|intros ?; done].
      * by rewrite list_lookup_insert_ne.
Qed.

(* the successor of an element of a ring *)
Lemma ring_next sl A t B : ring sl (A ++ t :: B) → nx sl t = head (B ++ A ++ [t]).
Proof.
  intros HR. apply ring_rotate in HR. simpl in HR.
  replace (head (B ++ A ++ [t])) with (Some (default t (head (B ++ A)))).
  2:{ rewrite (assoc_L (++)). destruct (B ++ A); done. }
  destruct HR as (Hnd & Hseg & Hcl).
  destruct (B ++ A) as [|n l]; simpl.
  - destruct (Hcl t t) as [H _]; done.
  - simpl in Hseg. by destruct Hseg as [[H _] _].
Qed.

Lemma RI_get sl rs fl r A t B :
  RI sl rs fl → rs r = A ++ t :: B →
  ∃ x n, slab_get sl t = Some (x, n) ∧ items sl !! t = Some (Some x) ∧ Some n = head (B ++ A ++ [t]).
Proof.
  intros H HAB. destruct (ri_live _ _ _ H r t) as [x Hx].
  { rewrite HAB, elem_of_app, elem_of_cons. tauto. }
  destruct (get_live sl t x Hx) as (n & Hg & Hn). exists x, n. split_and!; [done|done|].
  rewrite <-Hn. apply ring_next. rewrite <-HAB. apply (ri_ring _ _ _ H).
Qed.

Lemma RI_new : RI slab_new (λ _, []) [].
Proof.
  split.
  - intros; apply ring_nil.
  - intros r r' t H. by apply elem_of_nil in H.
  - intros r t H. by apply elem_of_nil in H.
  - intros t [x Hx]. unfold items in Hx; simpl in Hx. by rewrite lookup_nil in Hx.
  - apply slab_new_ok.
Qed.
End rings.
