(* The elementary state changes made by the operations of a shard: each preserves the
   invariant; what happens to the slab and the table is stated exactly. *)
From Verif Require Export ShardOps.

Section state.
Context {P : Params} (LW : Lawful P).
Notation K := (K P). Notation V := (V P).
Notation entry := (entry P). Notation shard := (shard P). Notation resident := (resident P).
Implicit Types (s : shard) (l : lcs P) (e : entry) (r : resident) (its : list (option entry)) (k : K) (v : V) (c : contents P)
  (rs : rid → list nat) (fl : list nat) (sl : slab entry) (st : rstate).

(* a state that differs from s in the table, the slab, one account, the ghosts and the next
   placeholder identity *)
Definition mk s (m : table) sl st (a : acct) (gh : option nat) (nnr nph : N) : shard :=
  Shard m sl (match st with Hot => a | Cold => sh_hot s end) (match st with Hot => sh_cold s | Cold => a end)
    gh (sh_target_hot s) (sh_capacity s) nnr (sh_cap_nr s) (sh_hits s) (sh_misses s) nph.

Definition other st : rstate := match st with Hot => Cold | Cold => Hot end.

Lemma mk_inv s rs fl m sl st a gh nnr nph rs' fl' :
  Inv' s rs fl → RI sl rs' fl' →
  a_head a = head (rs' (st_rid st)) →
  rs' (st_rid (other st)) = rs (st_rid (other st)) →
  gh = head (rs' RGhost) →
  memb rs' (items sl) →
  a_weight a = esum (wof st) (items sl) → a_num a = esum (nof st) (items sl) →
  esum (wof (other st)) (items sl) = esum (wof (other st)) (its_of s) →
  esum (nof (other st)) (items sl) = esum (nof (other st)) (its_of s) →
  nnr = esum ghn (items sl) → (nnr ≤ sh_cap_nr s)%N →
  MI (tpairs m) (items sl) nph →
  Inv' (mk s m sl st a gh nnr nph) rs' fl'.
Proof.
  intros HI HR Ha Ho Hg Hm Hw Hn How Hon Hgn Hle HM. unfold its_of in *.
  destruct (i_acc _ _ _ HI) as [HAw HAn HAg]. unfold its_of in *.
  pose proof (i_heads _ _ _ HI RHot) as Hh1. pose proof (i_heads _ _ _ HI RCold) as Hh2.
  pose proof (HAw Hot) as Hw1. pose proof (HAw Cold) as Hw2. pose proof (HAn Hot) as Hn1. pose proof (HAn Cold) as Hn2.
  split; simpl; [done| |done| |done|done].
  - intros r. destruct r, st; simpl in *; congruence.
  - unfold its_of; simpl. split.
    + intros st'. destruct st, st'; simpl in *; congruence.
    + intros st'. destruct st, st'; simpl in *; congruence.
    + done.
Qed.

(* ---- replacing a resident by one of the same weight and state ---- *)
Lemma same_spec s rs fl t r r' :
  Inv' s rs fl → its_of s !! t = Some (Some (Resident r)) →
  r_state r' = r_state r → rweight r' = rweight r → keqb P (r_key r) (r_key r') = true →
  Inv' (set_entry s t (Resident r')) rs fl.
Proof.
  intros HI Ht Hs Hw Hk.
  destruct (RI_set _ _ _ _ (Resident r') _ (i_ri _ _ _ HI) Ht) as [Hit HR].
  destruct (i_acc _ _ _ HI) as [HAw HAn HAg].
  assert (∀ f : entry → N, f (Resident r) = f (Resident r') → esum f (items (slab_set (sh_ents s) t (Resident r'))) = esum f (its_of s)) as He.
  { intros f Hf. rewrite Hit. rewrite (esum_upd _ _ _ _ _ Ht). simpl.
    pose proof (esum_ge f _ _ _ Ht). rewrite <-Hf. fold (its_of s). lia. }
  split; simpl.
  - done.
  - apply (i_heads _ _ _ HI).
  - unfold its_of; simpl. rewrite Hit. eapply memb_insert; [apply HI|by eapply lookup_lt_Some|done|].
    intros r0. rewrite (memb_cls _ _ _ _ _ (i_memb _ _ _ HI) Ht).
    assert (cls (Resident r') = cls (Resident r)) as <- by (simpl; by rewrite Hw, Hs). naive_solver.
  - unfold its_of; simpl. split.
    + intros st. rewrite He; [apply (HAw st)|]. simpl. by rewrite Hs, Hw.
    + intros st. rewrite He; [apply (HAn st)|]. simpl. by rewrite Hs.
    + rewrite He; done.
  - apply HI.
  - unfold its_of; simpl. rewrite Hit. eapply (MI_set LW); [apply HI|done| |done|done| |done].
    + simpl. symmetry. by apply (hash_keqb _ LW).
    + simpl. intros k' [= <-]. left. eauto.
Qed.

Lemma set_entry_mk s t e st :
  set_entry s t e = mk s (sh_map s) (slab_set (sh_ents s) t e) st (sh_acct s st) (sh_ghost_head s) (sh_nnr s) (sh_nph s).
Proof. by destruct s, st. Qed.

(* ---- linking a weighted entry at the back of a list ---- *)
Definition link_if sl (t : nat) (h : option nat) (w : N) : res (slab entry * option nat) :=
  if negb (w =? 0)%N then let! (es, h0) := slab_link sl t h in Ok (es, Some h0) else Ok (sl, h).
Lemma link_if_spec sl rs fl t (r : rid) w :
  RI sl rs fl → live sl t → (∀ r : rid, t ∉ rs r) →
  ∃ sl' rs', link_if sl t (head (rs r)) w = Ok (sl', head (rs' r)) ∧ items sl' = items sl ∧ RI sl' rs' fl ∧
    (∀ r' : rid, r' ≠ r → rs' r' = rs r') ∧
    (∀ t', t' ∈ rs' r ↔ t' ∈ rs r ∨ (w ≠ 0%N ∧ t' = t)).
Proof.
  intros HR Hl Hn. unfold link_if. destruct (N.eqb_spec w 0) as [Hw|Hw]; simpl.
  - exists sl, rs. split_and!; try done. intros t'. naive_solver.
  - destruct (RI_link _ _ _ _ r HR Hl Hn) as (sl' & -> & Hit & HR'). simpl.
    exists sl', (rupd rs r (rs r ++ [t])). rewrite rupd_eq. split_and!; [|done|done| |].
    + by destruct (rs r).
    + intros r' Hne. by rewrite rupd_ne.
    + intros t'. rewrite elem_of_app, elem_of_list_singleton. naive_solver.
Qed.
Lemma link_back_if s st idx w :
  (if negb (w =? 0)%N then link_back s st idx else Ok s) =
  (let! (es, h) := link_if (sh_ents s) idx (a_head (sh_acct s st)) w in Ok (set_head (set_ents s es) st h)).
Proof.
  unfold link_if, link_back. destruct (negb (w =? 0)%N); simpl.
  - destruct (slab_link _ _ _) as [[? ?]|]; done.
  - by destruct s as [m es [hh hw hn] [ch cw cn]], st.
Qed.

(* ---- changing the weight of a resident ---- *)
Definition reweigh s st (idx : nat) (ow nw : N) : res shard :=
  let! s := sub_weight s st ow in
  let! s := add_weight s st nw in
  if (ow =? 0)%N && negb (nw =? 0)%N then link_back s st idx
  else if negb (ow =? 0)%N && (nw =? 0)%N then
    let! (es, h) := slab_unlink (sh_ents s) idx in
    Ok (set_head (set_ents s es) st h)
  else Ok s.
Lemma reweigh_eq s st idx ow nw :
  (ow ≤ a_weight (sh_acct s st))%N → (a_weight (sh_acct s st) - ow + nw < two64)%N →
  reweigh s st idx ow nw =
    (let! (es, h) := (if (ow =? 0)%N && negb (nw =? 0)%N then
                        let! (es, h) := slab_link (sh_ents s) idx (a_head (sh_acct s st)) in Ok (es, Some h)
                      else if negb (ow =? 0)%N && (nw =? 0)%N then slab_unlink (sh_ents s) idx
                      else Ok (sh_ents s, a_head (sh_acct s st))) in
     Ok (mk s (sh_map s) es st (Acct h (a_weight (sh_acct s st) - ow + nw) (a_num (sh_acct s st)))
           (sh_ghost_head s) (sh_nnr s) (sh_nph s))).
Proof.
  intros H1 H2. destruct s as [m es [hh hw hn] [ch cw cn] gh th cap nnr capnr hits misses nph].
  unfold reweigh, sub_weight, add_weight, link_back. destruct st; simpl in *;
    (rewrite wsub_ok by done; simpl; rewrite wadd_ok by done; simpl;
     destruct (_ && _); [destruct (slab_link _ _ _) as [[? ?]|]; done|];
     destruct (_ && _); [destruct (slab_unlink _ _) as [[? ?]|]; done|done]).
Qed.
Lemma reweigh_ovf s st idx ow nw :
  (ow ≤ a_weight (sh_acct s st))%N → (two64 ≤ a_weight (sh_acct s st) - ow + nw)%N →
  reweigh s st idx ow nw = Fail WeightOvf.
Proof.
  intros H1 H2. unfold reweigh, sub_weight, add_weight. rewrite wsub_ok by done. simpl.
  replace (a_weight _) with (a_weight (sh_acct s st) - ow)%N by (by destruct st).
  unfold wadd. rewrite (proj2 (N.ltb_ge _ _)) by done. done.
Qed.

Lemma reweigh_spec s t r r' :
  Inv s → its_of s !! t = Some (Some (Resident r)) →
  r_state r' = r_state r → keqb P (r_key r) (r_key r') = true →
  let W := (a_weight (sh_acct s (r_state r)) - rweight r + rweight r')%N in
  if (W <? two64)%N then
    ∃ s', reweigh (set_entry s t (Resident r')) (r_state r) t (rweight r) (rweight r') = Ok s' ∧
      Inv s' ∧ its_of s' = <[t := Some (Resident r')]> (its_of s) ∧ sh_map s' = sh_map s ∧ static s' = static s
  else reweigh (set_entry s t (Resident r')) (r_state r) t (rweight r) (rweight r') = Fail WeightOvf.
Proof.
  intros (rs & fl & HI) Ht Hs Hk W.
  set (st := r_state r) in *.
  destruct (i_acc _ _ _ HI) as [HAw HAn HAg].
  destruct (RI_set _ _ _ _ (Resident r') _ (i_ri _ _ _ HI) Ht) as [Hit HR].
  assert (rweight r ≤ a_weight (sh_acct s st))%N as Hle.
  { rewrite HAw. etrans; [|apply (esum_ge _ _ _ _ Ht)]. simpl. by rewrite decide_True. }
  assert (sh_acct (set_entry s t (Resident r')) st = sh_acct s st) as Hac by (by destruct st).
  destruct (N.ltb_spec W two64) as [HW|HW].
  2:{ apply reweigh_ovf; rewrite Hac; done. }
  rewrite reweigh_eq by (rewrite Hac; done). rewrite Hac. simpl.
  assert (∀ sl' h' rs', items sl' = items (slab_set (sh_ents s) t (Resident r')) → RI sl' rs' fl →
    h' = head (rs' (st_rid st)) → (∀ r0 : rid, r0 ≠ st_rid st → rs' r0 = rs r0) →
    (∀ t', t' ∈ rs' (st_rid st) ↔ (t' ≠ t ∧ t' ∈ rs (st_rid st)) ∨ (t' = t ∧ rweight r' ≠ 0%N)) →
    let S' := mk (set_entry s t (Resident r')) (sh_map s) sl' st (Acct h' (a_weight (sh_acct s st) - rweight r + rweight r') (a_num (sh_acct s st)))
          (sh_ghost_head s) (sh_nnr s) (sh_nph s) in
    Inv S' ∧ its_of S' = <[t := Some (Resident r')]> (its_of s) ∧ sh_map S' = sh_map s ∧ static S' = static s) as Hfin.
  { intros sl' h' rs' Hit' HR' Hh Hoth Hel S'. rewrite Hit in Hit'.
    split; [|split_and!; [done|done|done]].
    exists rs', fl. subst S'.
    replace (mk (set_entry s t (Resident r')) (sh_map s) sl' st (Acct h' (a_weight (sh_acct s st) - rweight r + rweight r') (a_num (sh_acct s st)))
          (sh_ghost_head s) (sh_nnr s) (sh_nph s)) with
      (mk s (sh_map s) sl' st (Acct h' (a_weight (sh_acct s st) - rweight r + rweight r') (a_num (sh_acct s st)))
          (sh_ghost_head s) (sh_nnr s) (sh_nph s)) by (by destruct s, st).
    assert (∀ f : entry → N, esum f (items sl') = esum f (its_of s) - f (Resident r) + f (Resident r'))%N as He.
    { intros f. rewrite Hit'. by rewrite (esum_upd _ _ _ _ _ Ht). }
    assert (∀ f : entry → N, f (Resident r) = f (Resident r') → esum f (items sl') = esum f (its_of s)) as He2.
    { intros f Hf. rewrite He. pose proof (esum_ge f _ _ _ Ht). lia. }
    eapply mk_inv; [done|done|done| | | | | | | | |apply HI|].
    - apply Hoth. by destruct st.
    - rewrite Hoth by (by destruct st). apply (i_heads _ _ _ HI RGhost).
    - rewrite Hit'. eapply memb_insert; [apply HI|by eapply lookup_lt_Some| |].
      + intros r0 t' Hne. destruct (decide (r0 = st_rid st)) as [->|Hne0]; [rewrite Hel; naive_solver|by rewrite Hoth].
      + intros r0. destruct (decide (r0 = st_rid st)) as [->|Hne0].
        * rewrite Hel. split.
          -- intros [[? _]|[_ Hw]]; [done|]. eexists. split; [done|].
             pose proof (cls_nz r') as Hc. rewrite Hs in Hc. by apply Hc.
          -- intros (e & [= <-] & Hc). right. split; [done|]. intros Hz. by rewrite cls_z in Hc.
        * rewrite Hoth by done. rewrite (memb_cls _ _ _ _ _ (i_memb _ _ _ HI) Ht). split.
          -- simpl. destruct (_ =? _)%N; [done|]. by intros [= <-].
          -- intros (e & [= <-] & Hc). simpl in Hc. destruct (_ =? _)%N; [done|]. rewrite Hs in Hc. by simplify_eq.
    - simpl. rewrite He. rewrite HAw. simpl. rewrite !decide_True by done. done.
    - simpl. rewrite He2; [apply HAn|]. simpl. by rewrite !decide_True by done.
    - apply He2. simpl. rewrite Hs. rewrite !decide_False by (subst st; by destruct (r_state r)). done.
    - apply He2. simpl. by rewrite Hs.
    - rewrite He2 by done. apply HAg.
    - rewrite Hit'. eapply (MI_set LW); [apply HI|done| |done|done| |done].
      + simpl. symmetry. by apply (hash_keqb _ LW).
      + simpl. intros k' [= <-]. left. eauto. }
  pose proof (i_heads _ _ _ HI (st_rid st)) as Hh.
  assert (a_head (sh_acct s st) = head (rs (st_rid st))) as Hh' by (by destruct st).
  assert (live (slab_set (sh_ents s) t (Resident r')) t) as Hlive.
  { exists (Resident r'). rewrite Hit. apply list_lookup_insert. by eapply lookup_lt_Some. }
  destruct (N.eqb_spec (rweight r) 0) as [H0|H0], (N.eqb_spec (rweight r') 0) as [H1|H1]; simpl.
  - eexists. split; [done|]. eapply (Hfin _ _ rs); try done. intros t'. split; [|naive_solver].
    intros Hin. left. split; [|done]. intros ->. revert Hin. eapply inv_noring; [done|done|]. by rewrite cls_z.
  - assert (∀ r0 : rid, t ∉ rs r0) as Hni.
    { intros r0. eapply inv_noring; [done|done|]. by rewrite cls_z. }
    rewrite Hh'. destruct (RI_link _ _ _ _ (st_rid st) HR Hlive Hni) as (sl' & -> & Hit2 & HR'). simpl.
    eexists. split; [done|]. eapply (Hfin _ _ (rupd rs (st_rid st) (rs (st_rid st) ++ [t]))); try done.
    + rewrite rupd_eq. by destruct (rs _).
    + intros r0 Hne. by rewrite rupd_ne.
    + intros t'. rewrite rupd_eq, elem_of_app, elem_of_list_singleton. specialize (Hni (st_rid st)).
      destruct (decide (t' = t)) as [->|]; naive_solver.
  - pose proof (inv_ring _ _ _ _ _ HI Ht H0) as Hin. fold st in Hin.
    apply elem_of_list_split in Hin as (A & B & HAB).
    pose proof (leave_notin _ _ _ _ _ _ _ (i_ri _ _ _ HI) HAB (st_rid st)) as Hnt.
    destruct (RI_unlink _ _ _ _ _ _ _ HR HAB) as (sl' & -> & Hit2 & HR'). simpl.
    eexists. split; [done|]. eapply (Hfin _ _ (rupd rs (st_rid st) (B ++ A))); try done.
    + by rewrite rupd_eq.
    + intros r0 Hne. by rewrite rupd_ne.
    + intros t'. rewrite rupd_eq in *. rewrite HAB. rewrite !elem_of_app, elem_of_cons in *.
      destruct (decide (t' = t)) as [->|]; naive_solver.
  - eexists. split; [done|]. eapply (Hfin _ _ rs); try done. intros t'.
    pose proof (inv_ring _ _ _ _ _ HI Ht H0) as Hin. fold st in Hin.
    destruct (decide (t' = t)) as [->|]; naive_solver.
Qed.
End state.
