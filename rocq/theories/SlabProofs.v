(* Rings, free chain and specifications of the LinkedSlab operations. *)
From Verif Require Export Slab.

Section slab_proofs.
Context {T : Type}.
Implicit Types (s : slab T) (e : snode T) (x : T) (l A B L fl : list nat).

Definition items s : list (option T) := item <$> ents s.
Definition nx s (t : nat) : option nat := nxt <$> ents s !! t.
Definition pv s (t : nat) : option nat := prv <$> ents s !! t.
Definition lnk s (a b : nat) : Prop := nx s a = Some b ∧ pv s b = Some a.
Definition live s (t : nat) : Prop := ∃ x, items s !! t = Some (Some x).

Fixpoint seg s l : Prop :=
  match l with
  | a :: r => match r with b :: _ => lnk s a b | [] => True end ∧ seg s r
  | [] => True
  end.
Definition closed s l : Prop :=
  ∀ a b, last l = Some a → head l = Some b → lnk s a b.
Definition ring s l : Prop := NoDup l ∧ seg s l ∧ closed s l.

Fixpoint fchain s (nf : nat) fl : Prop :=
  match fl with
  | [] => nf = length (ents s)
  | f :: r => nf = f ∧ ∃ n, nx s f = Some n ∧ fchain s n r
  end.
Definition slab_ok s fl : Prop :=
  fchain s (next_free s) fl ∧ NoDup fl ∧ (∀ t, items s !! t = Some None ↔ t ∈ fl).

(* ---- basic lemmas ---- *)
Lemma items_lookup s t : items s !! t = item <$> ents s !! t.
Proof. apply list_lookup_fmap. Qed.
Lemma items_length s : length (items s) = length (ents s).
Proof. apply fmap_length. Qed.
Lemma live_ents s t : live s t → ∃ e, ents s !! t = Some e ∧ is_live e = true.
Proof.
  intros [x Hx]. rewrite items_lookup in Hx.
  destruct (ents s !! t) as [e|] eqn:He; simpl in *; [|congruence].
  exists e; split; [done|]. unfold is_live. injection Hx as Hx. by rewrite Hx.
Qed.

Lemma seg_app s l1 l2 :
  seg s (l1 ++ l2) ↔ seg s l1 ∧ seg s l2 ∧
    (∀ a b, last l1 = Some a → head l2 = Some b → lnk s a b).
Proof.
  induction l1 as [|a l1 IH]; simpl.
  { split; [intros H; split_and!; auto; intros; discriminate | tauto]. }
  destruct l1 as [|b l1]; simpl in *.
  - destruct l2 as [|c l2]; simpl; [split; [intuition congruence|tauto]|].
    split.
    + intros (H1 & H2 & H3). split_and!; auto. intros; simplify_eq; auto.
    + intros (H1 & H2 & H3). split_and!; try tauto. by apply H3.
  - rewrite IH. tauto.
Qed.

Lemma head_app_cons {X} (l : list X) (x : X) r : head (l ++ x :: r) = Some (default x (head l)).
Proof. by destruct l. Qed.
Lemma last_app_cons {X} (l : list X) (x : X) r : last (l ++ x :: r) = Some (default x (last r)).
Proof. rewrite last_app, last_cons. by destruct (last r). Qed.
Lemma last_snoc' {X} (l : list X) (x : X) : last (l ++ [x]) = Some x.
Proof. apply last_snoc. Qed.
Lemma head_elem {X} (l : list X) (x : X) : head l = Some x → x ∈ l.
Proof. destruct l; simpl; [discriminate|]. intros [= ->]. left. Qed.
Lemma last_elem {X} (l : list X) (x : X) : last l = Some x → x ∈ l.
Proof. intros H. apply last_Some_elem_of in H. done. Qed.

Lemma ring_rotate s A B : ring s (A ++ B) → ring s (B ++ A).
Proof.
  intros (Hnd & Hseg & Hcl).
  destruct A as [|a A]; [by rewrite app_nil_r|].
  destruct B as [|b B]; [by rewrite app_nil_r in *|].
  split_and!.
  - rewrite Permutation_app_comm. done.
  - apply seg_app in Hseg as (H1 & H2 & H3). apply seg_app. split_and!; auto.
    intros x y Hx Hy. apply Hcl; [|done]. by rewrite last_app, Hx.
  - intros x y Hx Hy. apply seg_app in Hseg as (H1 & H2 & H3). apply H3.
    + rewrite last_app in Hx. destruct (last (a :: A)) eqn:E; [congruence|].
      by apply last_None in E.
    + done.
Qed.

Lemma ring_nil s : ring s [].
Proof. split_and!; [constructor|done|]. intros a b; discriminate. Qed.
Lemma ring_single s t : ring s [t] ↔ lnk s t t.
Proof.
  split.
  - intros (_ & _ & H). by apply H.
  - intros H. split_and!; [apply NoDup_singleton|simpl;auto|]. intros a b [= ->] [= ->]; done.
Qed.

Lemma seg_frame s s' l :
  (∀ t, t ∈ l → nx s' t = nx s t ∧ pv s' t = pv s t) → seg s l → seg s' l.
Proof.
  induction l as [|a l IH]; simpl; [done|]. intros Hf [H1 H2]. split.
  - destruct l as [|b l]; [done|]. destruct H1 as [Ha Hb].
    split; [rewrite (proj1 (Hf a ltac:(left)))|rewrite (proj2 (Hf b ltac:(right;left)))]; done.
  - apply IH; [|done]. intros; apply Hf. by right.
Qed.
Lemma ring_frame s s' l :
  (∀ t, t ∈ l → nx s' t = nx s t ∧ pv s' t = pv s t) → ring s l → ring s' l.
Proof.
  intros Hf (H1 & H2 & H3). split_and!; [done|by eapply seg_frame|].
  intros a b Ha Hb. destruct (H3 a b Ha Hb) as [Hx Hy]. split.
  - rewrite (proj1 (Hf a (last_elem _ _ Ha))). done.
  - rewrite (proj2 (Hf b (head_elem _ _ Hb))). done.
Qed.
Lemma lnk_self_frame s s' t :
  nx s' t = nx s t → pv s' t = pv s t → lnk s t t → lnk s' t t.
Proof. intros H1 H2 [? ?]. split; congruence. Qed.

(* seg survives changes of the outgoing pointer of the last and incoming pointer of the first node *)
Lemma seg_frame_ends s s' l :
  NoDup l →
  (∀ t, t ∈ l → last l ≠ Some t → nx s' t = nx s t) →
  (∀ t, t ∈ l → head l ≠ Some t → pv s' t = pv s t) → seg s l → seg s' l.
Proof.
  induction l as [|a l IH]; simpl; [done|]. intros Hnd Hn Hp [H1 H2].
  apply NoDup_cons in Hnd as [Ha Hnd]. split.
  - destruct l as [|b l]; [done|]. destruct H1 as [Hx Hy]. split.
    + rewrite Hn; [done|by left|]. intros Hl. apply Ha. by apply last_elem.
    + rewrite Hp; [done|by right;left|]. intros [= ->]. apply Ha. by left.
  - destruct l as [|b l]; [done|]. apply IH; auto.
    + intros t Ht Hl. apply Hn; [by right|done].
    + intros t Ht Hl. apply Hp; [by right|]. intros [= ->]. done.
Qed.

(* ---- effect of single-entry updates on nx/pv/items ---- *)
Lemma nx_upd s i e t : i < length (ents s) → nx (upd s i e) t = if decide (t = i) then Some (nxt e) else nx s t.
Proof.
  intros Hi. unfold nx, upd; simpl. destruct (decide (t = i)) as [->|].
  - by rewrite list_lookup_insert.
  - by rewrite list_lookup_insert_ne.
Qed.
Lemma pv_upd s i e t : i < length (ents s) → pv (upd s i e) t = if decide (t = i) then Some (prv e) else pv s t.
Proof.
  intros Hi. unfold pv, upd; simpl. destruct (decide (t = i)) as [->|].
  - by rewrite list_lookup_insert.
  - by rewrite list_lookup_insert_ne.
Qed.
Lemma items_upd s i e : items (upd s i e) = <[i := item e]> (items s).
Proof. unfold items, upd; simpl. by rewrite list_fmap_insert. Qed.
Lemma items_upd_links s i e p n : ents s !! i = Some e → items (upd s i (set_links e p n)) = items s.
Proof.
  intros He. rewrite items_upd. simpl. apply list_insert_id. by rewrite items_lookup, He.
Qed.
Lemma ents_upd_length s i e : length (ents (upd s i e)) = length (ents s).
Proof. simpl. by rewrite insert_length. Qed.

Lemma fchain_frame s s' nf fl :
  length (ents s') = length (ents s) →
  (∀ t, t ∈ fl → nx s' t = nx s t) → fchain s nf fl → fchain s' nf fl.
Proof.
  intros Hl. revert nf. induction fl as [|f fl IH]; simpl; intros nf Hf H; [congruence|].
  destruct H as [-> (n & Hn & H)]. split; [done|]. exists n. split.
  - rewrite Hf; [done|by left].
  - apply IH; [|done]. intros; apply Hf. by right.
Qed.

Lemma slab_ok_frame s s' fl :
  items s' = items s → next_free s' = next_free s →
  (∀ t, ¬ live s t → nx s' t = nx s t) → slab_ok s fl → slab_ok s' fl.
Proof.
  intros Hi Hnf Hfr (H1 & H2 & H3). split_and!; [|done|by rewrite Hi].
  rewrite Hnf. eapply fchain_frame; [| |done].
  - rewrite <-!items_length. by rewrite Hi.
  - intros t Ht. apply Hfr. intros [x Hx]. apply H3 in Ht. congruence.
Qed.

Local Arguments upd : simpl never.
Ltac inv_live Hl e He Hle := apply live_ents in Hl as (e & He & Hle).

(* reading an entry that exists *)
Lemma at_ok s i e : ents s !! i = Some e → at_ s i = Ok e.
Proof. unfold at_. by intros ->. Qed.

Lemma is_live_set_links e p n : is_live (set_links e p n) = is_live e.
Proof. done. Qed.

Lemma lookup_upd_eq s i e : i < length (ents s) → ents (upd s i e) !! i = Some e.
Proof. intros. unfold upd; simpl. by apply list_lookup_insert. Qed.
Lemma lookup_upd_ne s i j e : i ≠ j → ents (upd s i e) !! j = ents s !! j.
Proof. intros. unfold upd; simpl. by apply list_lookup_insert_ne. Qed.

Lemma nx_ents s t e : ents s !! t = Some e → nx s t = Some (nxt e).
Proof. unfold nx. by intros ->. Qed.
Lemma pv_ents s t e : ents s !! t = Some e → pv s t = Some (prv e).
Proof. unfold pv. by intros ->. Qed.

(* ---- link ---- *)
Lemma link_spec s idx L :
  ring s L → (∀ t, t ∈ L → live s t) → live s idx → lnk s idx idx → idx ∉ L →
  ∃ s', slab_link s idx (head L) = Ok (s', default idx (head L)) ∧
    items s' = items s ∧ next_free s' = next_free s ∧
    ring s' (L ++ [idx]) ∧
    (∀ t, t ∉ L → t ≠ idx → nx s' t = nx s t ∧ pv s' t = pv s t).
Proof.
  intros HR Hlive Hidx Hself Hni.
  apply live_ents in Hidx as (ei & Hei & Hli).
  destruct Hself as [Hsn Hsp].
  assert (nxt ei = idx) as Hni' by (unfold nx in Hsn; rewrite Hei in Hsn; simpl in Hsn; congruence).
  assert (prv ei = idx) as Hpi' by (unfold pv in Hsp; rewrite Hei in Hsp; simpl in Hsp; congruence).
  assert (idx < length (ents s)) as Hlt by (by eapply lookup_lt_Some).
  unfold slab_link. destruct L as [|th L]; simpl.
  { rewrite (at_ok _ _ _ Hei); simpl. rewrite Hli; simpl.
    rewrite !bool_decide_true by done; simpl.
    eexists; split; [done|]. split_and!.
    - apply items_upd_links. done.
    - done.
    - apply ring_single. split.
      + rewrite nx_upd by done. rewrite decide_True by done. done.
      + rewrite pv_upd by done. rewrite decide_True by done. done.
    - intros t _ Ht. rewrite nx_upd, pv_upd, !decide_False by done. done. }
  destruct HR as (Hnd & Hseg & Hcl).
  destruct (Hlive th) as [xh Hxh]; [left|].
  assert (live s th) as Hlh by (by exists xh).
  apply live_ents in Hlh as (eh & Heh & Hleh).
  assert (th < length (ents s)) as Hlth by (by eapply lookup_lt_Some).
  rewrite (at_ok _ _ _ Heh); simpl. rewrite Hleh; simpl.
  assert (th ≠ idx) as Hne by (intros ->; apply Hni; left).
  (* the element before the head *)
  assert (∃ la, last (th :: L) = Some la) as [la Hla].
  { destruct (last (th :: L)) eqn:E; [eauto|]. by apply last_None in E. }
  assert (lnk s la th) as [Hla1 Hla2] by (by apply Hcl).
  assert (prv eh = la) as Hprv.
  { unfold pv in Hla2. rewrite Heh in Hla2. simpl in Hla2. congruence. }
  assert (la ∈ th :: L) as Hlain by (by apply last_elem).
  assert (la ≠ idx) as Hlane by (intros ->; done).
  (* common final argument *)
  assert (∀ s', length (ents s') = length (ents s) →
     (∀ t, nx s' t = if decide (t = idx) then Some th else if decide (t = la) then Some idx else nx s t) →
     (∀ t, pv s' t = if decide (t = idx) then Some la else if decide (t = th) then Some idx else pv s t) →
     ring s' ((th :: L) ++ [idx]) ∧
     (∀ t, t ∉ th :: L → t ≠ idx → nx s' t = nx s t ∧ pv s' t = pv s t)) as Hfin.
  { intros s' _ Hn Hp. split.
    - split_and!.
      + apply NoDup_app. split_and!; [done| |apply NoDup_singleton].
        intros y Hy Hy2. apply elem_of_list_singleton in Hy2 as ->. done.
      + apply seg_app. split_and!.
        * eapply seg_frame_ends; [done| | |done].
          -- intros t Ht Hl. rewrite Hn. rewrite decide_False by (by intros ->).
             rewrite decide_False; [done|]. intros ->. done.
          -- intros t Ht Hl. rewrite Hp. rewrite decide_False by (by intros ->).
             rewrite decide_False; [done|]. intros ->. done.
        * simpl. auto.
        * intros a b Ha Hb. simpl in Hb. rewrite Hla in Ha. simplify_eq.
          split; [rewrite Hn|rewrite Hp].
          -- rewrite decide_False by done. by rewrite decide_True.
          -- by rewrite decide_True.
      + intros a b Ha Hb. rewrite last_snoc in Ha. simpl in Hb. simplify_eq.
        split; [rewrite Hn|rewrite Hp].
        * by rewrite decide_True.
        * rewrite decide_False by done. by rewrite decide_True.
    - intros t Ht Hti. rewrite Hn, Hp. rewrite !(decide_False (P:=t = idx)) by done.
      rewrite !decide_False; [done| |]; intros ->; apply Ht; [left|done]. }
  destruct (decide (prv eh = th)) as [Hp|Hp].
  - (* single-element ring *)
    rewrite (bool_decide_true (prv eh = th)) by done; simpl.
    unfold at_. rewrite lookup_upd_ne by done. rewrite Hei; simpl. rewrite Hli; simpl.
    rewrite !bool_decide_true by done; simpl.
    eexists; split; [done|]. 
    assert (la = th) as -> by congruence.
    assert (items (upd (upd s th (set_links eh idx idx)) idx (set_links ei th th)) = items s) as Hit.
    { rewrite items_upd_links; [by apply items_upd_links|]. by rewrite lookup_upd_ne. }
    split; [done|]. split; [done|].
    apply Hfin.
    + by rewrite !ents_upd_length.
    + intros t. rewrite nx_upd by (by rewrite ents_upd_length). rewrite nx_upd by done. simpl.
      repeat destruct (decide _); done.
    + intros t. rewrite pv_upd by (by rewrite ents_upd_length). rewrite pv_upd by done. simpl.
      repeat destruct (decide _); done.
  - rewrite (bool_decide_false (prv eh = th)) by done; simpl.
    assert (la ≠ th) as Hlath by congruence.
    rewrite Hprv.
    destruct (Hlive la Hlain) as [xa Hxa].
    assert (live s la) as Hll by (by exists xa).
    apply live_ents in Hll as (ea & Hea & Hlea).
    assert (la < length (ents s)) as Hltla by (by eapply lookup_lt_Some).
    assert (nxt ea = th) as Hnea by (unfold nx in Hla1; rewrite Hea in Hla1; simpl in Hla1; congruence).
    unfold at_. rewrite lookup_upd_ne by done. rewrite Hea; simpl. rewrite Hlea; simpl.
    rewrite (bool_decide_true (nxt ea = th)) by done; simpl.
    unfold at_; simpl. rewrite !list_lookup_insert_ne by done.
    rewrite Hei; simpl. rewrite Hli; simpl.
    rewrite !bool_decide_true by done; simpl.
    eexists; split; [done|].
    split.
    { rewrite items_upd_links.
      - rewrite items_upd_links; [by apply items_upd_links|]. by rewrite lookup_upd_ne.
      - rewrite !lookup_upd_ne by done. done. }
    split; [done|].
    apply Hfin.
    + by rewrite !ents_upd_length.
    + intros t. rewrite nx_upd by (by rewrite !ents_upd_length).
      rewrite nx_upd by (by rewrite !ents_upd_length). rewrite nx_upd by done. simpl.
      repeat destruct (decide _); simplify_eq; try done. by rewrite (nx_ents _ _ _ Heh).
    + intros t. rewrite pv_upd by (by rewrite !ents_upd_length).
      rewrite pv_upd by (by rewrite !ents_upd_length). rewrite pv_upd by done. simpl.
      repeat destruct (decide _); simplify_eq; try done. by rewrite (pv_ents _ _ _ Hea).
Qed.

(* ---- unlink ---- *)
Lemma unlink_spec s idx A B :
  ring s (A ++ idx :: B) → (∀ t, t ∈ A ++ idx :: B → live s t) →
  ∃ s', slab_unlink s idx = Ok (s', head (B ++ A)) ∧
    items s' = items s ∧ next_free s' = next_free s ∧
    ring s' (B ++ A) ∧ lnk s' idx idx ∧
    (∀ t, t ∉ A ++ idx :: B → nx s' t = nx s t ∧ pv s' t = pv s t).
Proof.
  intros HR Hlive.
  apply ring_rotate in HR. simpl in HR.
  assert (∀ t, t ∈ idx :: B ++ A → live s t) as Hlive'.
  { intros t Ht. apply Hlive. rewrite elem_of_app, elem_of_cons. rewrite elem_of_cons, elem_of_app in Ht. tauto. }
  assert (∀ t, t ∉ A ++ idx :: B → t ∉ idx :: B ++ A) as Hnin.
  { intros t Ht Ht2. apply Ht. rewrite elem_of_app, elem_of_cons. rewrite elem_of_cons, elem_of_app in Ht2. tauto. }
  clear Hlive. generalize dependent (B ++ A). intros R HR Hlive Hnin.
  destruct (Hlive idx) as [xi Hxi]; [left|].
  assert (live s idx) as Hlh by (by exists xi).
  apply live_ents in Hlh as (ei & Hei & Hlei).
  assert (idx < length (ents s)) as Hlt by (by eapply lookup_lt_Some).
  unfold slab_unlink. rewrite (at_ok _ _ _ Hei); simpl. rewrite Hlei; simpl.
  destruct HR as (Hnd & Hseg & Hcl).
  destruct R as [|n R].
  { (* single *)
    destruct (Hcl idx idx) as [Hn Hp]; [done..|].
    rewrite (nx_ents _ _ _ Hei) in Hn. rewrite (pv_ents _ _ _ Hei) in Hp. injection Hn as Hn. injection Hp as Hp.
    rewrite Hn, Hp. rewrite !bool_decide_true by done; simpl.
    exists s. split_and!; try done.
    - apply ring_nil.
    - split; [by rewrite (nx_ents _ _ _ Hei), Hn|by rewrite (pv_ents _ _ _ Hei), Hp]. }
  assert (∃ p, last (n :: R) = Some p) as [p Hp].
  { destruct (last (n :: R)) eqn:E; [eauto|]. by apply last_None in E. }
  simpl in Hseg. destruct Hseg as [[Hin Hnp] Hseg].
  destruct (Hcl p idx) as [Hpn Hip]; [by rewrite last_cons, Hp|done|].
  assert (nxt ei = n) as Hnei by (rewrite (nx_ents _ _ _ Hei) in Hin; congruence).
  assert (prv ei = p) as Hpei by (rewrite (pv_ents _ _ _ Hei) in Hip; congruence).
  apply NoDup_cons in Hnd as [Hnid Hnd].
  assert (n ≠ idx) as Hnne by (intros ->; apply Hnid; left).
  assert (p ∈ n :: R) as Hpin by (by apply last_elem).
  assert (p ≠ idx) as Hpne by (intros ->; done).
  rewrite Hnei, Hpei. rewrite bool_decide_false by done; simpl.
  destruct (Hlive n) as [xn Hxn]; [right; left|].
  assert (live s n) as Hln by (by exists xn).
  apply live_ents in Hln as (en & Hen & Hlen).
  assert (n < length (ents s)) as Hltn by (by eapply lookup_lt_Some).
  destruct (Hlive p) as [xp Hxp]; [by right|].
  assert (live s p) as Hlp by (by exists xp).
  apply live_ents in Hlp as (ep & Hep & Hlep).
  assert (p < length (ents s)) as Hltp by (by eapply lookup_lt_Some).
  assert (prv en = idx) as Hpen by (rewrite (pv_ents _ _ _ Hen) in Hnp; congruence).
  assert (nxt ep = idx) as Hnep by (rewrite (nx_ents _ _ _ Hep) in Hpn; congruence).
  set (s1 := upd s idx (set_links ei idx idx)).
  assert (ents s1 !! n = Some en) as Hen1 by (unfold s1; by rewrite lookup_upd_ne).
  rewrite (at_ok s1 n en Hen1); simpl. rewrite Hlen; simpl.
  rewrite (bool_decide_true (prv en = idx)) by done; simpl.
  set (s2 := upd s1 n (set_links en p (nxt en))).
  assert (∃ ep', ents s2 !! p = Some ep' ∧ is_live ep' = true ∧ nxt ep' = idx ∧
     prv ep' = (if decide (p = n) then p else prv ep) ∧ item ep' = item ep) as (ep' & Hep2 & Hlep2 & Hnep2 & Hpep2 & Hitep2).
  { unfold s2. destruct (decide (p = n)) as [->|Hpn'].
    - eexists. split; [apply lookup_upd_eq; unfold s1; by rewrite ents_upd_length|]. simpl.
      rewrite Hen in Hep. simplify_eq. done.
    - exists ep. rewrite lookup_upd_ne by done. unfold s1. rewrite lookup_upd_ne by done. done. }
  rewrite (at_ok s2 p ep' Hep2); simpl. rewrite Hlep2; simpl.
  rewrite (bool_decide_true (nxt ep' = idx)) by done; simpl.
  set (s3 := upd s2 p (set_links ep' (prv ep') n)).
  assert (∀ t, nx s3 t = if decide (t = idx) then Some idx else if decide (t = p) then Some n else nx s t) as Hnx.
  { intros t. unfold s3, s2, s1. rewrite nx_upd by (by rewrite !ents_upd_length).
    rewrite nx_upd by (by rewrite !ents_upd_length). rewrite nx_upd by done. simpl.
    repeat destruct (decide _); simplify_eq; try done. by rewrite (nx_ents _ _ _ Hen). }
  assert (∀ t, pv s3 t = if decide (t = idx) then Some idx else if decide (t = n) then Some p else pv s t) as Hpv.
  { intros t. unfold s3, s2, s1. rewrite pv_upd by (by rewrite !ents_upd_length).
    rewrite pv_upd by (by rewrite !ents_upd_length). rewrite pv_upd by done. simpl.
    rewrite Hpep2.
    repeat destruct (decide _); simplify_eq; try done; try congruence. by rewrite (pv_ents _ _ _ Hep). }
  exists s3. split; [done|]. split.
  { unfold s3. rewrite items_upd_links by done.
    unfold s2. rewrite items_upd_links by done.
    unfold s1. by apply items_upd_links. }
  split; [done|]. split; [|split].
  - split_and!; [done| |].
    + eapply seg_frame_ends; [done| | |done].
      * intros t Ht Hl. rewrite Hnx. rewrite decide_False by (by intros ->).
        rewrite decide_False; [done|]. intros ->. done.
      * intros t Ht Hl. rewrite Hpv. rewrite decide_False by (by intros ->).
        rewrite decide_False; [done|]. intros ->. done.
    + intros a b Ha Hb. rewrite Hp in Ha. simpl in Hb. simplify_eq. split.
      * rewrite Hnx. rewrite decide_False by done. by rewrite decide_True.
      * rewrite Hpv. rewrite decide_False by done. by rewrite decide_True.
  - split; [rewrite Hnx|rewrite Hpv]; by rewrite decide_True.
  - intros t Ht. apply Hnin in Ht. rewrite Hnx, Hpv.
    rewrite !(decide_False (P:=t = idx)) by (intros ->; apply Ht; left).
    rewrite !decide_False; [done| |]; intros ->; apply Ht; right; [left|done].
Qed.

(* ---- remove ---- *)
Lemma remove_spec s idx A B x fl :
  ring s (A ++ idx :: B) → (∀ t, t ∈ A ++ idx :: B → live s t) →
  items s !! idx = Some (Some x) → slab_ok s fl →
  ∃ s', slab_remove s idx = Ok (s', Some (x, head (B ++ A))) ∧
    items s' = <[idx := None]> (items s) ∧
    ring s' (B ++ A) ∧ slab_ok s' (idx :: fl) ∧
    (∀ t, t ∉ A ++ idx :: B → nx s' t = nx s t ∧ pv s' t = pv s t).
Proof.
  intros HR Hlive Hx Hok.
  destruct (unlink_spec s idx A B HR Hlive) as (s1 & Hun & Hit & Hnf & HR1 & Hself & Hfr).
  unfold slab_remove. rewrite Hun; simpl.
  assert (items s1 !! idx = Some (Some x)) as Hx1 by (by rewrite Hit).
  rewrite items_lookup in Hx1. destruct (ents s1 !! idx) as [e|] eqn:He; simpl in Hx1; [|done].
  rewrite (at_ok _ _ _ He); simpl. injection Hx1 as Hx1. rewrite Hx1.
  assert (idx < length (ents s1)) as Hlt by (by eapply lookup_lt_Some).
  set (e' := SNode None (next_free s1) (prv e)).
  set (s2 := Slab (<[idx := e']> (ents s1)) idx).
  exists s2. split; [done|].
  assert (items s2 = <[idx := None]> (items s)) as Hit2.
  { unfold s2, items; simpl. rewrite list_fmap_insert. simpl. f_equal. exact Hit. }
  assert (∀ t, t ≠ idx → nx s2 t = nx s1 t ∧ pv s2 t = pv s1 t) as Hfr2.
  { intros t Ht. unfold nx, pv, s2; simpl. by rewrite list_lookup_insert_ne. }
  assert (idx ∉ B ++ A) as Hni.
  { destruct HR as (Hnd & _). apply ring_rotate in HR1. 
    assert (NoDup (idx :: B ++ A)) as Hnd2.
    { rewrite Permutation_app_comm in Hnd. done. }
    apply NoDup_cons in Hnd2 as [? ?]. done. }
  split; [done|]. split_and!.
  - eapply ring_frame; [|exact HR1]. intros t Ht. apply Hfr2. intros ->. done.
  - destruct Hok as (Hc & Hnd & Hfree). split_and!.
    + simpl. split; [done|]. exists (next_free s1). split.
      * unfold nx, s2; simpl. by rewrite list_lookup_insert.
      * rewrite Hnf. eapply fchain_frame; [| |exact Hc].
        -- rewrite <-!items_length, Hit2. by rewrite insert_length.
        -- intros t Ht. apply Hfree in Ht.
           assert (t ≠ idx) by (intros ->; congruence).
           rewrite (proj1 (Hfr2 t ltac:(done))). apply Hfr.
           intros Hin. destruct (Hlive t Hin). congruence.
    + apply NoDup_cons. split; [|done]. intros Hin. apply Hfree in Hin. congruence.
    + intros t. rewrite Hit2, elem_of_cons. destruct (decide (t = idx)) as [->|Hne].
      * rewrite list_lookup_insert; [tauto|]. rewrite <-Hit, items_length. done.
      * rewrite list_lookup_insert_ne by done. rewrite Hfree. tauto.
  - intros t Ht. destruct (Hfr t Ht) as [H1 H2].
    destruct (Hfr2 t) as [H3 H4].
    { intros ->. apply Ht. rewrite elem_of_app, elem_of_cons. tauto. }
    rewrite H3, H4. done.
Qed.

(* ---- insert ---- *)
Lemma insert_spec (E : fail → Prop) s x fl :
  slab_ok s fl →
  ((N.of_nat (length (ents s)) + 2 = two32)%N → fl = [] → E SlabFull) →
  wp E (slab_insert s x) (λ r, let '(s', t) := r in
    t = next_free s ∧
    ((fl ≠ [] ∧ items s !! t = Some None ∧ items s' = <[t := Some x]> (items s))
     ∨ (fl = [] ∧ t = length (items s) ∧ items s' = items s ++ [Some x])) ∧
    lnk s' t t ∧ slab_ok s' (tail fl) ∧
    (∀ t', t' ≠ t → t' < length (ents s) → nx s' t' = nx s t' ∧ pv s' t' = pv s t')).
Proof.
  intros (Hc & Hnd & Hfree) HE. unfold slab_insert.
  destruct fl as [|f fl]; simpl in Hc.
  - rewrite Hc. rewrite (lookup_ge_None_2 (ents s)) by lia. simpl.
    rewrite bool_decide_true by done. simpl.
    destruct (N.eqb_spec (N.of_nat (length (ents s)) + 2) two32) as [Heq|Hne]; simpl; [by apply HE|].
    set (n := length (ents s)).
    set (s' := Slab (ents s ++ [SNode (Some x) n n]) (S n)).
    assert (ents s' !! n = Some (SNode (Some x) n n)) as Hn.
    { unfold s'; simpl. unfold n. by rewrite lookup_app_r, Nat.sub_diag by lia. }
    split_and!; try done.
    + right. split_and!; [done|by rewrite items_length|]. unfold items; simpl. by rewrite fmap_app.
    + split; [unfold nx|unfold pv]; by rewrite Hn.
    + split_and!; [simpl; rewrite app_length; simpl; lia|constructor|].
      intros t. split; [|by intros ?%elem_of_nil].
      intros Ht. exfalso. unfold items in Ht; simpl in Ht. rewrite fmap_app in Ht.
      apply lookup_app_Some in Ht as [Ht|[Hge Ht]].
      * change (items s !! t = Some None) in Ht. apply Hfree in Ht. by apply elem_of_nil in Ht.
      * destruct (t - length (item <$> ents s)) as [|k]; simpl in Ht; [done|]. done.
    + intros t' Hne' Hlt. unfold nx, pv, s'; simpl. by rewrite lookup_app_l by lia.
  - destruct Hc as [-> (n & Hn & Hc)].
    assert (items s !! f = Some None) as Hf by (apply Hfree; left).
    rewrite items_lookup in Hf. destruct (ents s !! f) as [e|] eqn:He; simpl in Hf; [|done].
    injection Hf as Hf. unfold is_live. rewrite Hf. simpl.
    assert (f < length (ents s)) as Hlt by (by eapply lookup_lt_Some).
    assert (nxt e = n) as -> by (rewrite (nx_ents _ _ _ He) in Hn; congruence).
    set (s' := Slab (<[f:=SNode (Some x) f f]> (ents s)) n).
    assert (ents s' !! f = Some (SNode (Some x) f f)) as Hn'.
    { unfold s'; simpl. by rewrite list_lookup_insert. }
    assert (items s' = <[f := Some x]> (items s)) as Hit.
    { unfold s', items; simpl. by rewrite list_fmap_insert. }
    assert (∀ t, t ≠ f → nx s' t = nx s t ∧ pv s' t = pv s t) as Hfr.
    { intros t Ht. unfold nx, pv, s'; simpl. by rewrite list_lookup_insert_ne. }
    apply NoDup_cons in Hnd as [Hnf Hnd].
    split_and!; try done.
    + left. split_and!; [done| |done]. rewrite items_lookup, He. simpl. by rewrite Hf.
    + split; [unfold nx|unfold pv]; by rewrite Hn'.
    + simpl. split_and!; [|done|].
      * eapply fchain_frame; [| |exact Hc].
        -- rewrite <-!items_length, Hit. by rewrite insert_length.
        -- intros t Ht. apply Hfr. intros ->. done.
      * intros t. rewrite Hit. destruct (decide (t = f)) as [->|Hne].
        -- rewrite list_lookup_insert by (by rewrite items_length). split; [done|]. intros ?; done.
        -- rewrite list_lookup_insert_ne by done. rewrite Hfree, elem_of_cons. tauto.
    + intros t' Ht' _. by apply Hfr.
Qed.

(* ---- set ---- *)
Lemma set_spec s i x y :
  items s !! i = Some (Some y) →
  items (slab_set s i x) = <[i := Some x]> (items s) ∧
  next_free (slab_set s i x) = next_free s ∧
  (∀ t, nx (slab_set s i x) t = nx s t ∧ pv (slab_set s i x) t = pv s t).
Proof.
  rewrite items_lookup. unfold slab_set. destruct (ents s !! i) as [e|] eqn:He; simpl; [|done].
  intros Hi. assert (i < length (ents s)) by (by eapply lookup_lt_Some).
  split_and!; [apply items_upd|done|]. intros t. rewrite nx_upd, pv_upd by done. simpl.
  destruct (decide (t = i)) as [->|]; [|done]. by rewrite (nx_ents _ _ _ He), (pv_ents _ _ _ He).
Qed.

Lemma get_items s i x n : slab_get s i = Some (x, n) ↔ items s !! i = Some (Some x) ∧ nx s i = Some n.
Proof.
  unfold slab_get, nx. rewrite items_lookup. destruct (ents s !! i) as [e|]; simpl; [|naive_solver].
  destruct (item e); naive_solver.
Qed.
Lemma get_items_None s i : slab_get s i = None ↔ ¬ live s i.
Proof.
  unfold slab_get, live. rewrite items_lookup. destruct (ents s !! i) as [e|]; simpl; [|naive_solver].
  destruct (item e); naive_solver.
Qed.
Lemma get_live s i x : items s !! i = Some (Some x) → ∃ n, slab_get s i = Some (x, n) ∧ nx s i = Some n.
Proof.
  intros Hi. assert (∃ n, nx s i = Some n) as [n Hn].
  { unfold nx. rewrite items_lookup in Hi. destruct (ents s !! i); simpl in *; [eauto|done]. }
  exists n. split; [|done]. by apply get_items.
Qed.

Lemma slab_new_ok : slab_ok (slab_new (T:=T)) [].
Proof. split_and!; [done|constructor|]. intros t. unfold items; simpl. rewrite lookup_nil. split; [done|]. by intros ?%elem_of_nil. Qed.

Lemma slab_iter_items s : slab_iter s = omap id (items s).
Proof.
  unfold slab_iter, items. induction (ents s) as [|e l IH]; csimpl; [done|].
  destruct (item e); simpl; by f_equal.
Qed.

End slab_proofs.
