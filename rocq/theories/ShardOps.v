(* Every operation of a shard preserves the invariant and does to the contents what Spec.v says. *)
From Verif Require Export ShardLookup.

Section rot.
Context {T R : Type} `{!EqDecision R}.
Implicit Types (sl : slab T) (rs : R → list nat) (r : R) (t : nat) (fl A B : list nat).
Lemma RI_rotate sl rs fl r A B : RI sl (rupd rs r (B ++ A)) fl → RI sl (rupd rs r (A ++ B)) fl.
Proof.
  intros [Hr Hd Hl Hs Hok].
  assert (∀ r' t, t ∈ rupd rs r (A ++ B) r' ↔ t ∈ rupd rs r (B ++ A) r') as Hel.
  { intros r' t. destruct (decide (r' = r)) as [->|Hne]; [rewrite !rupd_eq, !elem_of_app; tauto|].
    by rewrite !rupd_ne by done. }
  split.
  - intros r'. specialize (Hr r'). destruct (decide (r' = r)) as [->|Hne].
    + rewrite rupd_eq in *. by apply ring_rotate.
    + by rewrite rupd_ne in * by done.
  - intros r1 r2 t. rewrite !Hel. apply Hd.
  - intros r' t. rewrite Hel. apply Hl.
  - intros t Ht Hn. apply Hs; [done|]. intros r'. rewrite <-Hel. apply Hn.
  - done.
Qed.
(* unlinking with the head updated only when it is the unlinked token *)
Lemma RI_unlink2 sl rs fl t r A B :
  RI sl rs fl → rs r = A ++ t :: B →
  ∃ sl' n, slab_unlink sl t = Ok (sl', n) ∧ items sl' = items sl ∧ RI sl' (rupd rs r (A ++ B)) fl ∧
    (if bool_decide (head (rs r) = Some t) then n else head (rs r)) = head (A ++ B).
Proof.
  intros H HAB. destruct (RI_unlink _ _ _ _ _ _ _ H HAB) as (sl' & Hu & Hi & HR).
  exists sl', (head (B ++ A)). split_and!; [done|done|by apply RI_rotate|].
  assert (NoDup (A ++ t :: B)) as Hnd by (rewrite <-HAB; by eapply RI_NoDup).
  rewrite HAB. destruct A as [|a A]; simpl.
  - rewrite bool_decide_true by done. by rewrite app_nil_r.
  - rewrite bool_decide_false; [done|]. intros [= ->]. simpl in Hnd.
    apply NoDup_cons in Hnd as [Hn _]. apply Hn. rewrite elem_of_app, elem_of_cons. tauto.
Qed.
Lemma RI_remove2 sl rs fl t r A B x :
  RI sl rs fl → rs r = A ++ t :: B → items sl !! t = Some (Some x) →
  ∃ sl' n, slab_remove sl t = Ok (sl', Some (x, n)) ∧
    items sl' = <[t := None]> (items sl) ∧ RI sl' (rupd rs r (A ++ B)) (t :: fl) ∧
    (if bool_decide (head (rs r) = Some t) then n else head (rs r)) = head (A ++ B).
Proof.
  intros H HAB Hx. destruct (RI_remove _ _ _ _ _ _ _ _ H HAB Hx) as (sl' & Hu & Hi & HR).
  exists sl', (head (B ++ A)). split_and!; [done|done|by apply RI_rotate|].
  assert (NoDup (A ++ t :: B)) as Hnd by (rewrite <-HAB; by eapply RI_NoDup).
  rewrite HAB. destruct A as [|a A]; simpl.
  - rewrite bool_decide_true by done. by rewrite app_nil_r.
  - rewrite bool_decide_false; [done|]. intros [= ->]. simpl in Hnd.
    apply NoDup_cons in Hnd as [Hn _]. apply Hn. rewrite elem_of_app, elem_of_cons. tauto.
Qed.
End rot.

Ltac hd_tac H :=
  let r := fresh "r" in let X := fresh in intros r; pose proof (H r) as X; destruct r; simpl in *;
  rewrite ?rupd_eq, ?rupd_ne by done; done.
Ltac inv_split H := split; simpl; [done|hd_tac H| | |try done; lia| ].
Ltac esum_tac Ht := simpl; rewrite (esum_upd _ _ _ _ _ Ht); simpl; unfold rweight; simpl; lia.

Section ops.
Context {P : Params} (LW : Lawful P).
Notation K := (K P). Notation V := (V P).
Notation entry := (entry P). Notation shard := (shard P). Notation resident := (resident P).
Implicit Types (s : shard) (l : lcs P) (e : entry) (r : resident) (its : list (option entry)) (k : K) (v : V) (c : contents P)
  (rs : rid → list nat) (fl : list nat).

(* ---- observations of a state ---- *)
Definition cfg s : N * N * N := (sh_target_hot s, sh_capacity s, sh_cap_nr s).
Definition stats s : N * N := (sh_hits s, sh_misses s).
Global Instance mapped_dec s t : Decision (mapped s t) := _ : Decision (t ∈ (tpairs (sh_map s)).*2).
(* the placeholder at a token, and whether it can be found *)
Definition ph_at s (t : nat) : option (placeh P * bool) :=
  match its_of s !! t with Some (Some (Placeholder p)) => Some (p, bool_decide (mapped s t)) | _ => None end.
Definition ph_del k (o : option (placeh P * bool)) : option (placeh P * bool) :=
  match o with Some (p, true) => if keqb P k (p_key p) then None else o | _ => o end.
(* the slab grows only when every slot is in use *)
Definition slots s : N := N.of_nat (length (its_of s)).
Definition used s : N := esum one (its_of s).
Definition slots_ok s s' : Prop := (slots s' ≤ N.max (slots s) (used s'))%N.

Lemma slots_ok_eq s s' : length (its_of s') = length (its_of s) → slots_ok s s'.
Proof. unfold slots_ok, slots. lia. Qed.

Lemma ev_cfg s l s' l' : ev_post s l s' l' → cfg s' = cfg s ∧ stats s' = stats s ∧ sh_nph s' = sh_nph s.
Proof. intros [H _ _ _ _ _]. unfold static in H. unfold cfg, stats. injection H as ? ? ? ? ? ?. split_and!; congruence. Qed.
Lemma ev_ph s l s' l' t : ev_post s l s' l' → ph_at s' t = ph_at s t.
Proof.
  intros [_ _ _ _ H1 H2]. unfold ph_at. destruct (its_of s' !! t) as [[[r|p|h]|]|] eqn:E.
  2:{ apply H1 in E as E'. rewrite E'. do 2 f_equal. apply bool_decide_ext. unfold mapped. by eapply H2. }
  all: destruct (its_of s !! t) as [[[r'|p'|h']|]|] eqn:E'; try done; apply H1 in E'; congruence.
Qed.

Lemma memb_leave2 rs its (sl : slab entry) fl t (r : rid) A B o :
  memb rs its → RI sl rs fl → t < length its → rs r = A ++ t :: B →
  (∀ e, o = Some e → cls e = None) →
  memb (rupd rs r (A ++ B)) (<[t := o]> its).
Proof.
  intros Hm HRI Hlt HAB Ho. pose proof (memb_leave _ _ _ _ _ _ _ _ o Hm HRI Hlt HAB Ho) as H.
  intros r' t'. rewrite <-(H r' t'). destruct (decide (r' = r)) as [->|Hne].
  - rewrite !rupd_eq, !elem_of_app. tauto.
  - by rewrite !rupd_ne by done.
Qed.
Lemma leave_notin2 rs (sl : slab entry) fl t (r : rid) A B : RI sl rs fl → rs r = A ++ t :: B → ∀ r' : rid, t ∉ rupd rs r (A ++ B) r'.
Proof.
  intros HRI HAB r'. pose proof (leave_notin _ _ _ _ _ _ _ HRI HAB r') as H.
  destruct (decide (r' = r)) as [->|Hne].
  - rewrite rupd_eq in *. rewrite elem_of_app in *. tauto.
  - by rewrite !rupd_ne in * by done.
Qed.

(* ---- deletion from the contents ---- *)
Lemma del_elem k c p : p ∈ del k c ↔ p ∈ c ∧ keqb P k p.1 = false.
Proof.
  unfold del. rewrite !elem_of_list_In, List.filter_In, negb_true_iff. done.
Qed.
Lemma del_perm k c c' : c ≡ₚ c' → del k c ≡ₚ del k c'.
Proof.
  unfold del. induction 1; simpl; repeat case_match; try done.
  - by f_equiv.
  - by rewrite Permutation_swap.
  - by etrans.
Qed.
Lemma del_none k c : find_key k c = None → del k c = c.
Proof.
  intros H. unfold del. induction c as [|p c IH]; [done|]. simpl in *.
  destruct (keqb P k p.1) eqn:E; [done|]. simpl. by rewrite IH.
Qed.
Lemma del_head k p c : ukeys (p :: c) → keqb P k p.1 = true → del k (p :: c) = c.
Proof.
  intros [Hu _] Hk. unfold del. simpl. rewrite Hk. simpl. apply (del_none k c), (find_key_None k c).
  intros q Hq. rewrite Forall_forall in Hu. rewrite (keqb_cong LW _ _ _ Hk). by apply Hu.
Qed.
Lemma del_kvs s t r k : Inv s → its_of s !! t = Some (Some (Resident r)) → keqb P k (r_key r) = true →
  kvs (<[t := None]> (its_of s)) ≡ₚ del k (sh_iter s).
Proof.
  intros HI Ht Hk. pose proof (inv_ukeys LW s HI) as Hu. rewrite sh_iter_kvs in *.
  pose proof (kvs_split _ _ _ Ht) as Hp. simpl in Hp. apply (ukeys_perm LW _ _ Hp) in Hu.
  etrans; [|symmetry; by apply del_perm]. by rewrite del_head.
Qed.

(* ---- remove_internal ---- *)
Lemma remove_internal_spec s t e :
  Inv s → its_of s !! t = Some (Some e) → mapped s t →
  ∃ s', remove_internal s (hash_of_entry e) t = Ok (s', resident_kv e) ∧ Inv s' ∧
    its_of s' = <[t := None]> (its_of s) ∧ sh_map s' = tremove (sh_map s) t ∧ static s' = static s.
Proof.
  intros (rs & fl & HI) Ht Hm. unfold remove_internal.
  assert (t < length (its_of s)) as Hlt by (by eapply lookup_lt_Some).
  rewrite (map_remove_spec LW).
  2:{ destruct (m_tok _ _ _ _ (i_map _ _ _ HI) Hm) as (e' & He' & Hin). rewrite Ht in He'. by simplify_eq. }
  simpl. destruct (i_acc _ _ _ HI) as [Haw Han Hag].
  pose proof (Haw Hot) as HawH. pose proof (Han Hot) as HanH. simpl in HawH, HanH.
  pose proof (Haw Cold) as HawC. pose proof (Han Cold) as HanC. simpl in HawC, HanC.
  pose proof (esum_ge (wof Hot) _ _ _ Ht) as G1. pose proof (esum_ge (nof Hot) _ _ _ Ht) as G2.
  pose proof (esum_ge (wof Cold) _ _ _ Ht) as G3. pose proof (esum_ge (nof Cold) _ _ _ Ht) as G4.
  pose proof (esum_ge ghn _ _ _ Ht) as G5.
  pose proof (i_ghost _ _ _ HI) as Hgb.
  pose proof (MI_remove _ _ _ t (i_map _ _ _ HI)) as HMI.
  assert (∀ sl' o n (f : shard → res (shard * option (K * V))), slab_remove (sh_ents s) t = Ok (sl', Some (o, n)) →
     (let! (es, o) := slab_remove (sh_ents s) t in let! (e, next) := unwrap o in
      match e with
      | Resident r =>
          let! s0 := dec_num (set_ents (set_map s (tremove (sh_map s) t)) es) (r_state r) in
          let! s1 := sub_weight s0 (r_state r) (rweight r) in
          Ok (if bool_decide (a_head (sh_acct s1 (r_state r)) = Some t) then set_head s1 (r_state r) next else s1,
              Some (r_key r, r_val r))
      | Ghost _ =>
          let! s0 := dec_nnr (set_ents (set_map s (tremove (sh_map s) t)) es) in
          Ok (if bool_decide (sh_ghost_head s0 = Some t) then set_ghost_head s0 next else s0, None)
      | Placeholder _ => Ok (set_ents (set_map s (tremove (sh_map s) t)) es, None)
      end) =
     match o with
      | Resident r =>
          let! s0 := dec_num (set_ents (set_map s (tremove (sh_map s) t)) sl') (r_state r) in
          let! s1 := sub_weight s0 (r_state r) (rweight r) in
          Ok (if bool_decide (a_head (sh_acct s1 (r_state r)) = Some t) then set_head s1 (r_state r) n else s1,
              Some (r_key r, r_val r))
      | Ghost _ =>
          let! s0 := dec_nnr (set_ents (set_map s (tremove (sh_map s) t)) sl') in
          Ok (if bool_decide (sh_ghost_head s0 = Some t) then set_ghost_head s0 n else s0, None)
      | Placeholder _ => Ok (set_ents (set_map s (tremove (sh_map s) t)) sl', None)
      end) as Hrw by (by intros ???? ->).
  destruct e as [[k v st x]|p|h].
  - destruct (N.eqb_spec (weight P k v) 0) as [Hz|Hz].
    + (* weightless: in no list *)
      assert (∀ r : rid, t ∉ rs r) as Hni.
      { intros r. eapply inv_noring; [done|done|]. by rewrite cls_z. }
      destruct (RI_remove_free _ _ _ _ _ (i_ri _ _ _ HI) Hni Ht) as (sl' & Hrm & Hit & HRI').
      rewrite Hrm. simpl. clear Hrw.
      assert (∀ st', head (rs (st_rid st')) ≠ Some t) as Hnh.
      { intros st' Hh. apply head_elem in Hh. by apply Hni in Hh. }
      pose proof (i_heads _ _ _ HI) as Hhd.
      destruct st; unfold dec_num, sub_weight; simpl in *; unfold rweight in *; simpl in *;
        (rewrite wsub_ok by lia; simpl; rewrite wsub_ok by lia; simpl).
      * rewrite bool_decide_false by (rewrite (Hhd RHot : a_head (sh_hot s) = _); apply (Hnh Hot)).
        eexists. split; [done|]. split_and!; [|done|done|done].
        exists rs, (t :: fl). inv_split Hhd.
        -- unfold its_of; simpl. rewrite Hit. eapply memb_insert; [apply HI|done|done|].
           intros r. split; [by intros ?%Hni|by intros (? & ? & ?)].
        -- unfold its_of; simpl. rewrite Hit. fold (its_of s). split.
           ++ intros []; simpl; rewrite (esum_upd _ _ _ _ _ Ht); simpl; unfold rweight; simpl; lia.
           ++ intros []; simpl; rewrite (esum_upd _ _ _ _ _ Ht); simpl; unfold rweight; simpl; lia.
           ++ simpl; rewrite (esum_upd _ _ _ _ _ Ht); simpl; lia.
        -- unfold its_of; simpl. rewrite Hit. done.
      * rewrite bool_decide_false by (rewrite (Hhd RCold : a_head (sh_cold s) = _); apply (Hnh Cold)).
        eexists. split; [done|]. split_and!; [|done|done|done].
        exists rs, (t :: fl). inv_split Hhd.
        -- unfold its_of; simpl. rewrite Hit. eapply memb_insert; [apply HI|done|done|].
           intros r. split; [by intros ?%Hni|by intros (? & ? & ?)].
        -- unfold its_of; simpl. rewrite Hit. fold (its_of s). split.
           ++ intros []; simpl; rewrite (esum_upd _ _ _ _ _ Ht); simpl; unfold rweight; simpl; lia.
           ++ intros []; simpl; rewrite (esum_upd _ _ _ _ _ Ht); simpl; unfold rweight; simpl; lia.
           ++ simpl; rewrite (esum_upd _ _ _ _ _ Ht); simpl; lia.
        -- unfold its_of; simpl. rewrite Hit. done.
    + pose proof (inv_ring _ _ _ _ _ HI Ht Hz) as Hin. simpl in Hin.
      apply elem_of_list_split in Hin as (A & B & HAB).
      destruct (RI_remove2 _ _ _ _ _ _ _ _ (i_ri _ _ _ HI) HAB Ht) as (sl' & n & Hrm & Hit & HRI' & Hn).
      rewrite Hrm. simpl. clear Hrw.
      pose proof (i_heads _ _ _ HI) as Hhd. rewrite <-(Hhd (st_rid st)) in Hn.
      assert (memb (rupd rs (st_rid st) (A ++ B)) (<[t := None]> (its_of s))) as Hmb.
      { eapply memb_leave2; [apply HI|apply HI|done|done|done]. }
      destruct st; unfold dec_num, sub_weight; simpl in *; unfold rweight in *; simpl in *;
        (rewrite wsub_ok by lia; simpl; rewrite wsub_ok by lia; simpl).
      * eexists. split; [done|].
        set (s' := if bool_decide _ then _ else _).
        assert (s' = Shard (tremove (sh_map s) t) sl' (Acct (head (A ++ B)) (a_weight (sh_hot s) - weight P k v) (a_num (sh_hot s) - 1))
          (sh_cold s) (sh_ghost_head s) (sh_target_hot s) (sh_capacity s) (sh_nnr s) (sh_cap_nr s) (sh_hits s) (sh_misses s) (sh_nph s)) as ->.
        { subst s'. rewrite <-Hn. by destruct (bool_decide _). }
        split_and!; [|done|done|done].
        exists (rupd rs RHot (A ++ B)), (t :: fl). inv_split Hhd.
        -- unfold its_of; simpl. rewrite Hit. done.
        -- unfold its_of; simpl. rewrite Hit. fold (its_of s). split.
           ++ intros []; simpl; rewrite (esum_upd _ _ _ _ _ Ht); simpl; unfold rweight; simpl; lia.
           ++ intros []; simpl; rewrite (esum_upd _ _ _ _ _ Ht); simpl; unfold rweight; simpl; lia.
           ++ simpl; rewrite (esum_upd _ _ _ _ _ Ht); simpl; lia.
        -- unfold its_of; simpl. rewrite Hit. done.
      * eexists. split; [done|].
        set (s' := if bool_decide _ then _ else _).
        assert (s' = Shard (tremove (sh_map s) t) sl' (sh_hot s) (Acct (head (A ++ B)) (a_weight (sh_cold s) - weight P k v) (a_num (sh_cold s) - 1))
          (sh_ghost_head s) (sh_target_hot s) (sh_capacity s) (sh_nnr s) (sh_cap_nr s) (sh_hits s) (sh_misses s) (sh_nph s)) as ->.
        { subst s'. rewrite <-Hn. by destruct (bool_decide _). }
        split_and!; [|done|done|done].
        exists (rupd rs RCold (A ++ B)), (t :: fl). inv_split Hhd.
        -- unfold its_of; simpl. rewrite Hit. done.
        -- unfold its_of; simpl. rewrite Hit. fold (its_of s). split.
           ++ intros []; simpl; rewrite (esum_upd _ _ _ _ _ Ht); simpl; unfold rweight; simpl; lia.
           ++ intros []; simpl; rewrite (esum_upd _ _ _ _ _ Ht); simpl; unfold rweight; simpl; lia.
           ++ simpl; rewrite (esum_upd _ _ _ _ _ Ht); simpl; lia.
        -- unfold its_of; simpl. rewrite Hit. done.
  - assert (∀ r : rid, t ∉ rs r) as Hni by (intros r; by eapply inv_noring).
    destruct (RI_remove_free _ _ _ _ _ (i_ri _ _ _ HI) Hni Ht) as (sl' & Hrm & Hit & HRI').
    rewrite Hrm. simpl. eexists. split; [done|]. split_and!; [|done|done|done].
    exists rs, (t :: fl). inv_split (i_heads _ _ _ HI).
    + unfold its_of; simpl. rewrite Hit. eapply memb_insert; [apply HI|done|done|].
      intros r. split; [by intros ?%Hni|by intros (? & ? & ?)].
    + unfold its_of; simpl. rewrite Hit. fold (its_of s). split.
      * intros []; simpl; rewrite (esum_upd _ _ _ _ _ Ht); simpl; lia.
      * intros []; simpl; rewrite (esum_upd _ _ _ _ _ Ht); simpl; lia.
      * simpl; rewrite (esum_upd _ _ _ _ _ Ht); simpl; lia.
    + unfold its_of; simpl. rewrite Hit. done.
  - assert (t ∈ rs RGhost) as Hin by (by apply (memb_cls _ _ _ _ _ (i_memb _ _ _ HI) Ht)).
    apply elem_of_list_split in Hin as (A & B & HAB).
    destruct (RI_remove2 _ _ _ _ _ _ _ _ (i_ri _ _ _ HI) HAB Ht) as (sl' & n & Hrm & Hit & HRI' & Hn).
    rewrite Hrm. simpl. clear Hrw.
    pose proof (i_heads _ _ _ HI) as Hhd. rewrite <-(Hhd RGhost) in Hn.
    assert (memb (rupd rs RGhost (A ++ B)) (<[t := None]> (its_of s))) as Hmb.
    { eapply memb_leave2; [apply HI|apply HI|done|done|done]. }
    unfold dec_nnr; simpl in *. rewrite wsub_ok by lia. simpl.
    eexists. split; [done|].
    set (s' := if bool_decide _ then _ else _).
    assert (s' = Shard (tremove (sh_map s) t) sl' (sh_hot s) (sh_cold s) (head (A ++ B))
      (sh_target_hot s) (sh_capacity s) (sh_nnr s - 1) (sh_cap_nr s) (sh_hits s) (sh_misses s) (sh_nph s)) as ->.
    { subst s'. rewrite <-Hn. by destruct (bool_decide _). }
    split_and!; [|done|done|done].
    exists (rupd rs RGhost (A ++ B)), (t :: fl). inv_split Hhd.
    + unfold its_of; simpl. rewrite Hit. done.
    + unfold its_of; simpl. rewrite Hit. fold (its_of s). split.
      * intros []; simpl; rewrite (esum_upd _ _ _ _ _ Ht); simpl; lia.
      * intros []; simpl; rewrite (esum_upd _ _ _ _ _ Ht); simpl; lia.
      * simpl; rewrite (esum_upd _ _ _ _ _ Ht); simpl; lia.
    + unfold its_of; simpl. rewrite Hit. done.
Qed.
End ops.
