(* State changes that make an entry enter, leave or become pending. *)
From Verif Require Export ShardState.

Section enter.
Context {P : Params} (LW : Lawful P).
Notation K := (K P). Notation V := (V P).
Notation entry := (entry P). Notation shard := (shard P). Notation resident := (resident P).
Implicit Types (s : shard) (l : lcs P) (e : entry) (r : resident) (its : list (option entry)) (k : K) (v : V) (c : contents P)
  (rs : rid → list nat) (fl : list nat) (sl : slab entry) (st : rstate).

Lemma heads_acct s rs fl st : Inv' s rs fl → a_head (sh_acct s st) = head (rs (st_rid st)).
Proof. intros HI. pose proof (i_heads _ _ _ HI (st_rid st)). by destruct st. Qed.

Lemma join_inv s rs fl m sl1 rs1 fl1 t r' st nnr nph :
  Inv' s rs fl → RI sl1 rs1 fl1 → items sl1 !! t = Some (Some (Resident r')) → r_state r' = st →
  (∀ r0 : rid, t ∉ rs1 r0) → (∀ st0, rs1 (st_rid st0) = rs (st_rid st0)) →
  (∀ (r0 : rid) t', t' ≠ t → t' ∈ rs1 r0 ↔ ∃ e, items sl1 !! t' = Some (Some e) ∧ cls e = Some r0) →
  esum (wof st) (items sl1) = (a_weight (sh_acct s st) + rweight r')%N →
  esum (nof st) (items sl1) = (a_num (sh_acct s st) + 1)%N →
  esum (wof (other st)) (items sl1) = esum (wof (other st)) (its_of s) →
  esum (nof (other st)) (items sl1) = esum (nof (other st)) (its_of s) →
  nnr = esum ghn (items sl1) → (nnr ≤ sh_cap_nr s)%N → MI (tpairs m) (items sl1) nph →
  ∃ sl' h', link_if sl1 t (a_head (sh_acct s st)) (rweight r') = Ok (sl', h') ∧ items sl' = items sl1 ∧
    Inv (mk s m sl' st (Acct h' (a_weight (sh_acct s st) + rweight r') (a_num (sh_acct s st) + 1))
           (head (rs1 RGhost)) nnr nph).
Proof.
  intros HI HR Ht Hst Hni Hsame Hm Hw Hn How Hon Hg Hgc HM.
  rewrite (heads_acct _ _ _ st HI), <-(Hsame st).
  destruct (link_if_spec sl1 rs1 fl1 t (st_rid st) (rweight r') HR) as (sl' & rs' & Hl & Hit & HR' & Ho & Hin).
  { eexists; done. } { done. }
  eexists sl', _. split; [done|]. split; [done|]. exists rs', fl1.
  eapply mk_inv; [done|done|done| | | | | | | |by rewrite Hit|done|by rewrite Hit].
  - rewrite Ho by (by destruct st). apply Hsame.
  - by rewrite Ho by (by destruct st).
  - rewrite Hit. intros r0 t'. destruct (decide (t' = t)) as [->|Hne].
    + destruct (decide (r0 = st_rid st)) as [->|Hne0].
      * rewrite Hin. split.
        -- intros [?%Hni|[? _]]; [done|]. eexists. split; [done|]. rewrite <-Hst. by apply cls_nz.
        -- intros (e & He & Hc). rewrite Ht in He. simplify_eq. right. split; [|done].
           intros Hz. by rewrite cls_z in Hc.
      * rewrite Ho by done. split; [by intros ?%Hni|]. intros (e & He & Hc). rewrite Ht in He.
        simplify_eq. simpl in Hc. destruct (_ =? _)%N; by simplify_eq.
    + rewrite <-Hm by done. destruct (decide (r0 = st_rid st)) as [->|Hne0]; [rewrite Hin; naive_solver|by rewrite Ho].
  - simpl. by rewrite Hit.
  - simpl. by rewrite Hit.
  - by rewrite Hit.
  - by rewrite Hit.
Qed.

(* ---- a placeholder becomes resident ---- *)
Definition enter s st (t : nat) (w : N) : res shard :=
  let! s1 := add_weight (inc_num s st) st w in
  if negb (w =? 0)%N then link_back s1 st t else Ok s1.
Lemma enter_eq s st t w :
  (a_weight (sh_acct s st) + w < two64)%N →
  enter s st t w =
    (let! (es, h) := link_if (sh_ents s) t (a_head (sh_acct s st)) w in
     Ok (mk s (sh_map s) es st (Acct h (a_weight (sh_acct s st) + w) (a_num (sh_acct s st) + 1))
          (sh_ghost_head s) (sh_nnr s) (sh_nph s))).
Proof.
  intros H. destruct s as [m es [hh hw hn] [ch cw cn] gh th cap nnr capnr hits misses nph].
  unfold enter, add_weight, inc_num. destruct st; simpl in *; rewrite wadd_ok by done; simpl; rewrite link_back_if; simpl;
    by destruct (link_if _ _ _ _) as [[??]|].
Qed.
Lemma enter_ovf s st t w : (two64 ≤ a_weight (sh_acct s st) + w)%N → enter s st t w = Fail WeightOvf.
Proof.
  intros H. unfold enter, add_weight, inc_num.
  replace (a_weight _) with (a_weight (sh_acct s st)) by (by destruct st).
  unfold wadd. by rewrite (proj2 (N.ltb_ge _ _)).
Qed.

Lemma enter_ph_spec s t p r' :
  Inv s → its_of s !! t = Some (Some (Placeholder p)) → mapped s t → keqb P (p_key p) (r_key r') = true →
  (a_weight (sh_acct s (r_state r')) + rweight r' < two64)%N →
  ∃ s', enter (set_entry s t (Resident r')) (r_state r') t (rweight r') = Ok s' ∧
    Inv s' ∧ its_of s' = <[t := Some (Resident r')]> (its_of s) ∧ sh_map s' = sh_map s ∧ static s' = static s.
Proof.
  intros (rs & fl & HI) Ht Hm Hk Hw. set (st := r_state r') in *.
  destruct (RI_set _ _ _ _ (Resident r') _ (i_ri _ _ _ HI) Ht) as [Hit HR].
  destruct (i_acc _ _ _ HI) as [HAw HAn HAg].
  assert (sh_acct (set_entry s t (Resident r')) st = sh_acct s st) as Hac by (by destruct st).
  rewrite enter_eq by (rewrite Hac; done). rewrite Hac. simpl.
  assert (∀ f : entry → N, esum f (items (slab_set (sh_ents s) t (Resident r'))) = esum f (its_of s) - f (Placeholder p) + f (Resident r'))%N as He.
  { intros f. rewrite Hit. by rewrite (esum_upd _ _ _ _ _ Ht). }
  assert (t < length (its_of s)) as Hlt by (by eapply lookup_lt_Some).
  destruct (join_inv s rs fl (sh_map s) (slab_set (sh_ents s) t (Resident r')) rs fl t r' st (sh_nnr s) (sh_nph s))
    as (sl' & h' & Hl & Hit' & HI'); try done.
  - rewrite Hit. by apply list_lookup_insert.
  - intros r0. by eapply inv_noring.
  - intros r0 t' Hne. rewrite Hit, list_lookup_insert_ne by done. apply (i_memb _ _ _ HI).
  - rewrite He, HAw. simpl. rewrite decide_True by done. lia.
  - rewrite He, HAn. simpl. rewrite decide_True by done. lia.
  - rewrite He. simpl. fold st. rewrite decide_False by (by destruct st). lia.
  - rewrite He. simpl. fold st. rewrite decide_False by (by destruct st). lia.
  - rewrite He, HAg. simpl. lia.
  - apply HI.
  - rewrite Hit. eapply (MI_set LW); [apply HI|done| |done|done| |done].
    + simpl. symmetry. by apply (hash_keqb _ LW).
    + simpl. intros k' [= <-]. left. eauto.
  - rewrite Hl. simpl. eexists. split; [done|].
    pose proof (i_heads _ _ _ HI RGhost) as Hg. simpl in Hg. rewrite <-Hg in HI'.
    split_and!; [|unfold its_of; simpl; by rewrite Hit', Hit|done|done].
    replace (mk (set_entry s t (Resident r'))) with (mk s); [done|]. by destruct s.
Qed.

(* ---- a ghost becomes resident (hot) ---- *)
Definition enter_ghost s (t : nat) (w : N) : res shard :=
  let! s := add_weight s Hot w in
  let s := inc_num s Hot in
  let! s := dec_nnr s in
  let! (es, next_ghost) := slab_unlink (sh_ents s) t in
  let s := set_ents s es in
  let s := if bool_decide (sh_ghost_head s = Some t) then set_ghost_head s next_ghost else s in
  if negb (w =? 0)%N then link_back s Hot t else Ok s.
Lemma enter_ghost_eq s t w sl n :
  (a_weight (sh_hot s) + w < two64)%N → (1 ≤ sh_nnr s)%N → slab_unlink (sh_ents s) t = Ok (sl, n) →
  enter_ghost s t w =
    (let! (es, h) := link_if sl t (a_head (sh_hot s)) w in
     Ok (mk s (sh_map s) es Hot (Acct h (a_weight (sh_hot s) + w) (a_num (sh_hot s) + 1))
          (if bool_decide (sh_ghost_head s = Some t) then n else sh_ghost_head s) (sh_nnr s - 1) (sh_nph s))).
Proof.
  intros H1 H2 H3. destruct s as [m es [hh hw hn] [ch cw cn] gh th cap nnr capnr hits misses nph].
  unfold enter_ghost, add_weight, inc_num, dec_nnr. simpl in *. rewrite wadd_ok by done. simpl.
  rewrite wsub_ok by done. simpl. rewrite H3. simpl. rewrite link_back_if.
  destruct (bool_decide (gh = Some t)); simpl; by destruct (link_if _ _ _ _) as [[??]|].
Qed.
Lemma enter_ghost_ovf s t w : (two64 ≤ a_weight (sh_hot s) + w)%N → enter_ghost s t w = Fail WeightOvf.
Proof.
  intros H. unfold enter_ghost, add_weight. simpl. unfold wadd. by rewrite (proj2 (N.ltb_ge _ _)).
Qed.

Lemma enter_ghost_spec s t r' :
  Inv s → its_of s !! t = Some (Some (Ghost (hash P (r_key r')))) → absent s (r_key r') → r_state r' = Hot →
  (a_weight (sh_hot s) + rweight r' < two64)%N →
  ∃ s', enter_ghost (set_entry s t (Resident r')) t (rweight r') = Ok s' ∧
    Inv s' ∧ its_of s' = <[t := Some (Resident r')]> (its_of s) ∧ sh_map s' = sh_map s ∧ static s' = static s.
Proof.
  intros (rs & fl & HI) Ht Ha Hst Hw.
  destruct (RI_set _ _ _ _ (Resident r') _ (i_ri _ _ _ HI) Ht) as [Hit HR].
  destruct (i_acc _ _ _ HI) as [HAw HAn HAg].
  assert (t ∈ rs RGhost) as Hin by (by apply (memb_cls _ _ _ _ _ (i_memb _ _ _ HI) Ht)).
  apply elem_of_list_split in Hin as (A & B & HAB).
  pose proof (leave_notin2 _ _ _ _ _ _ _ (i_ri _ _ _ HI) HAB) as Hnt.
  destruct (RI_unlink2 _ _ _ _ _ _ _ HR HAB) as (sl1 & n & Hu & Hit1 & HR1 & Hhd).
  assert (∀ f : entry → N, esum f (items (slab_set (sh_ents s) t (Resident r'))) = esum f (its_of s) - f (Ghost (hash P (r_key r'))) + f (Resident r'))%N as He.
  { intros f. rewrite Hit. by rewrite (esum_upd _ _ _ _ _ Ht). }
  assert (1 ≤ sh_nnr s)%N as Hge.
  { rewrite HAg. apply (esum_ge ghn _ _ _ Ht). }
  pose proof (i_heads _ _ _ HI RGhost) as Hgh. simpl in Hgh.
  erewrite enter_ghost_eq; [|done|done|done]. simpl. rewrite Hgh, Hhd. simpl.
  assert (t < length (its_of s)) as Hlt by (by eapply lookup_lt_Some).
  destruct (join_inv s rs fl (sh_map s) sl1 (rupd rs RGhost (A ++ B)) fl t r' Hot (sh_nnr s - 1) (sh_nph s))
    as (sl' & h' & Hl & Hit' & HI'); try done.
  - rewrite Hit1, Hit. by apply list_lookup_insert.
  - intros st0. by rewrite rupd_ne by (by destruct st0).
  - intros r0 t' Hne. rewrite Hit1, Hit, list_lookup_insert_ne by done. rewrite <-(i_memb _ _ _ HI r0 t').
    destruct (decide (r0 = RGhost)) as [->|Hne0]; [|by rewrite rupd_ne].
    rewrite rupd_eq, HAB, !elem_of_app, elem_of_cons. naive_solver.
  - rewrite Hit1, He, HAw. simpl. rewrite decide_True by done. lia.
  - rewrite Hit1, He, HAn. simpl. rewrite decide_True by done. lia.
  - rewrite Hit1, He. simpl. rewrite Hst. rewrite decide_False by done. lia.
  - rewrite Hit1, He. simpl. rewrite Hst. rewrite decide_False by done. lia.
  - rewrite Hit1, He, HAg. simpl. lia.
  - pose proof (i_ghost _ _ _ HI). lia.
  - rewrite Hit1, Hit. eapply (MI_set LW); [apply HI|done|done|done|done| |done].
    simpl. intros k' [= <-]. right. intros t2 e2 k2 H1 H2 H3. by eapply Ha.
  - rewrite rupd_eq in HI'. simpl in Hl. rewrite Hl. simpl. eexists. split; [done|].
    split_and!; [done|unfold its_of; simpl; by rewrite Hit', Hit1, Hit|done|done].
Qed.

(* ---- a new resident ---- *)
Lemma rehash_ok (m : list (N * nat)) (f : nat → res N) :
  (∀ h t, (h, t) ∈ m → f t = Ok h) → rehash m f = Ok m.
Proof.
  induction m as [|[h t] m IH]; intros H; [done|]. simpl. rewrite (H h t) by left. simpl.
  rewrite IH; [done|]. intros h' t' Hin. apply H. by right.
Qed.
Lemma hasher_ok s its nph h t : MI (tpairs (sh_map s)) its nph →
  (∀ t' e, its !! t' = Some (Some e) → its_of s !! t' = Some (Some e)) → (h, t) ∈ tpairs (sh_map s) → hasher s t = Ok h.
Proof.
  intros HM Hl Hin. destruct (m_live _ _ _ HM _ _ Hin) as (e & He & Hh).
  unfold hasher. rewrite (entry_at_ok _ _ e) by (by apply Hl). simpl. by rewrite Hh.
Qed.
Lemma map_insert_ok s h t its nph : MI (tpairs (sh_map s)) its nph →
  (∀ t' e, its !! t' = Some (Some e) → its_of s !! t' = Some (Some e)) →
  map_insert s h t = Ok (set_map s (Table ((h, t) :: tpairs (sh_map s)) (S (tepoch (sh_map s))))).
Proof.
  intros HM Hl. unfold map_insert, tinsert.
  rewrite rehash_ok by (intros h0 t0 Hin; by eapply hasher_ok). by destruct (grows _ _).
Qed.

Lemma fl_nil_used s rs : Inv' s rs [] → used s = slots s.
Proof.
  intros HI. destruct (ri_slab _ _ _ (i_ri _ _ _ HI)) as (_ & _ & H).
  assert (∀ t, its_of s !! t ≠ Some None) as Hn.
  { intros t Ht. apply H in Ht. by apply elem_of_nil in Ht. }
  clear H. unfold used, slots. revert Hn. generalize (its_of s). intros its Hn.
  induction its as [|o its IH]; [done|]. unfold esum in *. simpl.
  rewrite IH by (intros t; apply (Hn (S t))). destruct o as [e|]; simpl; [unfold one; lia|]. by destruct (Hn 0).
Qed.

(* what inserting into the slab does *)
Definition added its its' t e : Prop :=
  (∀ e0, its !! t ≠ Some (Some e0)) ∧ its' !! t = Some (Some e) ∧
  (∀ t' o, t' ≠ t → its' !! t' = Some o ↔ its !! t' = Some o) ∧
  (∀ f, esum f its' = esum f its + f e)%N ∧
  kvs its' ≡ₚ okv (Some e) ++ kvs its.
Lemma added_intro its its' t e :
  (its !! t = Some None ∧ its' = <[t := Some e]> its) ∨ (t = length its ∧ its' = its ++ [Some e]) → added its its' t e.
Proof.
  intros [[H1 ->]|[-> ->]].
  - assert (t < length its) as Hlt by (by eapply lookup_lt_Some). split_and!.
    + congruence.
    + by apply list_lookup_insert.
    + intros t' o Hne. by rewrite list_lookup_insert_ne.
    + intros f. by rewrite (esum_upd_None _ _ _ _ H1).
    + etrans; [by apply (kvs_insert _ _ _ _ H1)|]. f_equiv. by rewrite (list_insert_id _ _ _ H1).
  - split_and!.
    + intros e0. rewrite lookup_ge_None_2 by lia. done.
    + rewrite lookup_app_r, Nat.sub_diag by lia. done.
    + intros t' o Hne. destruct (decide (t' < length its)); [by rewrite lookup_app_l|].
      rewrite !lookup_ge_None_2 by (rewrite ?app_length; simpl; lia). done.
    + intros f. rewrite esum_app. done.
    + rewrite kvs_app. apply Permutation_app_comm.
Qed.

Definition enter_new s st key value (w h : N) : res (shard * nat) :=
  let s := inc_num s st in
  let! s := add_weight s st w in
  let! (es, idx) := slab_insert (sh_ents s) (Resident (Res key value st 0)) in
  let s := set_ents s es in
  let! s := (if negb (w =? 0)%N then link_back s st idx else Ok s) in
  let! s := map_insert s h idx in
  Ok (s, idx).

Lemma enter_new_spec (E : fail → Prop) s st k v :
  Inv s → absent s k → (a_weight (sh_acct s st) + weight P k v < two64)%N →
  ((two32 ≤ used s + 2)%N → E SlabFull) →
  wp E (enter_new s st k v (weight P k v) (hash P k)) (λ '(s', t),
    Inv s' ∧ added (its_of s) (its_of s') t (Resident (Res k v st 0)) ∧
    (∀ t', mapped s' t' ↔ t' = t ∨ mapped s t') ∧ slots_ok s s' ∧ static s' = static s).
Proof.
  intros (rs & fl & HI) Ha Hw HE. unfold enter_new.
  assert (add_weight (inc_num s st) st (weight P k v) = Ok (mk s (sh_map s) (sh_ents s) st
     (Acct (a_head (sh_acct s st)) (a_weight (sh_acct s st) + weight P k v) (a_num (sh_acct s st) + 1)) (sh_ghost_head s) (sh_nnr s) (sh_nph s))) as ->.
  { destruct s as [m es [hh hw hn] [ch cw cn] gh th cap nnr capnr hits misses nph].
    unfold add_weight, inc_num. destruct st; simpl in *; by rewrite wadd_ok. }
  simpl. apply wp_bind. eapply wp_mono.
  { apply (RI_insert E _ _ _ (Resident (Res k v st 0)) (i_ri _ _ _ HI)).
    intros Hfull ->. apply HE. rewrite (fl_nil_used _ _ HI). unfold slots. rewrite length_its. lia. }
  intros [sl1 t] (Htn & Hni & Hit & HR1). set (r' := Res k v st 0).
  assert (added (its_of s) (items sl1) t (Resident r')) as Hadd by (apply added_intro; unfold its_of; tauto).
  destruct Hadd as (Hn & Ht & Hfr & Hsum & Hkv).
  rewrite link_back_if. simpl.
  replace (a_head _) with (a_head (sh_acct s st)) by (by destruct st).
  destruct (i_acc _ _ _ HI) as [HAw HAn HAg].
  set (m' := Table ((hash P k, t) :: tpairs (sh_map s)) (S (tepoch (sh_map s)))).
  destruct (join_inv s rs fl m' sl1 rs (tail fl) t r' st (sh_nnr s) (sh_nph s))
    as (sl' & h' & Hl & Hit' & HI'); try done.
  - intros r0 t' Hne. rewrite (i_memb _ _ _ HI r0 t').
    split; intros (e & He & Hc); exists e; split; try done; by apply Hfr in He.
  - rewrite Hsum, HAw. simpl. rewrite decide_True by done. done.
  - rewrite Hsum, HAn. simpl. rewrite decide_True by done. done.
  - rewrite Hsum. simpl. rewrite decide_False by (by destruct st). lia.
  - rewrite Hsum. simpl. rewrite decide_False by (by destruct st). lia.
  - rewrite Hsum, HAg. simpl. lia.
  - apply HI.
  - simpl. change (hash P k) with (hash_of_entry (Resident r')).
    eapply (MI_add LW); [apply HI|done|done| |done| |done].
    + intros t' e0 Hne. by apply Hfr.
    + simpl. intros k0 [= <-] t2 e2 k2 H1 H2 H3. by eapply Ha.
  - unfold rweight in Hl; simpl in Hl. rewrite Hl. simpl.
    set (S1 := set_head _ _ _).
    assert (S1 = mk s (sh_map s) sl' st (Acct h' (a_weight (sh_acct s st) + rweight r') (a_num (sh_acct s st) + 1))
           (head (rs RGhost)) (sh_nnr s) (sh_nph s)) as ->.
    { pose proof (i_heads _ _ _ HI RGhost) as Hg. simpl in Hg. rewrite <-Hg. subst S1. by destruct st. }
    erewrite map_insert_ok; [|simpl; apply HI|].
    2:{ intros t' e Hlive. unfold its_of; simpl. rewrite Hit'. apply Hfr; [|done]. intros ->. by eapply Hn. }
    simpl. set (s' := set_map _ _).
    assert (s' = mk s m' sl' st (Acct h' (a_weight (sh_acct s st) + rweight r') (a_num (sh_acct s st) + 1))
           (head (rs RGhost)) (sh_nnr s) (sh_nph s)) as -> by done.
    split_and!; [done| | | |by destruct st].
    + unfold its_of at 2; simpl. rewrite Hit'. done.
    + intros t'. unfold mapped. simpl. rewrite elem_of_cons. done.
    + unfold slots_ok, slots, used, its_of; simpl. rewrite Hit'. fold (its_of s).
      destruct Hit as [(_ & _ & ->)|(-> & _ & ->)].
      * rewrite insert_length. unfold its_of. lia.
      * rewrite esum_app. simpl. pose proof (fl_nil_used _ _ HI) as Hfu. unfold used, slots in Hfu.
        unfold its_of in *. rewrite app_length. simpl. rewrite Hfu. unfold one. lia.
Qed.

(* ---- a ghost becomes pending ---- *)
Definition ghost_ph s (t : nat) (p : placeh P) : res shard :=
  let s := set_nph s (sh_nph s + 1) in
  let s := set_entry s t (Placeholder p) in
  let! s := dec_nnr s in
  let! (es, next) := slab_unlink (sh_ents s) t in
  let s := set_ents s es in
  Ok (if bool_decide (sh_ghost_head s = Some t) then set_ghost_head s next else s).
Lemma ghost_ph_spec s t k :
  Inv s → its_of s !! t = Some (Some (Ghost (hash P k))) → absent s k →
  let p := Pla k Hot (Plh (hash P k) t (sh_nph s)) in
  ∃ s', ghost_ph s t p = Ok s' ∧ Inv s' ∧ its_of s' = <[t := Some (Placeholder p)]> (its_of s) ∧
    sh_map s' = sh_map s ∧ cfg s' = cfg s ∧ stats s' = stats s ∧ sh_nph s' = (sh_nph s + 1)%N.
Proof.
  intros (rs & fl & HI) Ht Ha p.
  destruct (RI_set _ _ _ _ (Placeholder p) _ (i_ri _ _ _ HI) Ht) as [Hit HR].
  destruct (i_acc _ _ _ HI) as [HAw HAn HAg].
  assert (t ∈ rs RGhost) as Hin by (by apply (memb_cls _ _ _ _ _ (i_memb _ _ _ HI) Ht)).
  apply elem_of_list_split in Hin as (A & B & HAB).
  destruct (RI_unlink2 _ _ _ _ _ _ _ HR HAB) as (sl1 & n & Hu & Hit1 & HR1 & Hhd).
  assert (∀ f : entry → N, esum f (items sl1) = esum f (its_of s) - f (Ghost (hash P k)) + f (Placeholder p))%N as He.
  { intros f. rewrite Hit1, Hit. by rewrite (esum_upd _ _ _ _ _ Ht). }
  assert (1 ≤ sh_nnr s)%N as Hge.
  { rewrite HAg. apply (esum_ge ghn _ _ _ Ht). }
  pose proof (i_heads _ _ _ HI RGhost) as Hgh. simpl in Hgh.
  unfold ghost_ph, dec_nnr. simpl. rewrite wsub_ok by done. simpl. rewrite Hu. simpl.
  eexists. split; [done|]. set (s' := if bool_decide _ then _ else _).
  assert (s' = mk s (sh_map s) sl1 Hot (sh_hot s) (head (A ++ B)) (sh_nnr s - 1) (sh_nph s + 1)) as ->.
  { subst s'. rewrite <-Hhd, <-Hgh.
    destruct (decide (sh_ghost_head s = Some t)); [rewrite !bool_decide_true by done|rewrite !bool_decide_false by done]; done. }
  assert (t < length (its_of s)) as Hlt by (by eapply lookup_lt_Some).
  split_and!; try done.
  2:{ unfold its_of; simpl. by rewrite Hit1, Hit. }
  exists (rupd rs RGhost (A ++ B)), fl.
  eapply mk_inv; try done.
  - rewrite rupd_ne by done. apply (i_heads _ _ _ HI RHot).
  - rewrite Hit1, Hit. eapply memb_leave2; [apply HI|apply HI|done|done|]. by intros e [= <-].
  - rewrite He. simpl. rewrite N.sub_0_r, N.add_0_r. apply (HAw Hot).
  - rewrite He. simpl. rewrite N.sub_0_r, N.add_0_r. apply (HAn Hot).
  - rewrite He. simpl. lia.
  - rewrite He. simpl. lia.
  - rewrite He. simpl. lia.
  - pose proof (i_ghost _ _ _ HI). lia.
  - rewrite Hit1, Hit. eapply (MI_set LW); [apply HI|done|done|lia|done| |].
    + simpl. intros k' [= <-]. right. intros t2 e2 k2 H1 H2 H3. by eapply Ha.
    + intros p' [= <-]. simpl. split_and!; [done|done|lia|].
      intros t2 p2 Hne Hp2. destruct (m_ph _ _ _ (i_map _ _ _ HI) _ _ Hp2) as (_ & _ & ?). lia.
Qed.

(* ---- a new pending entry ---- *)
Definition new_ph s (h : N) (k : K) : res (shard * plh) :=
  let idx := next_free (sh_ents s) in
  let shared := Plh h idx (sh_nph s) in
  let s := set_nph s (sh_nph s + 1) in
  let! (es, idx_) := slab_insert (sh_ents s) (Placeholder (Pla k Cold shared)) in
  let! _ := assert (bool_decide (idx = idx_)) in
  let! s := map_insert (set_ents s es) h idx in
  Ok (s, shared).
Lemma new_ph_spec (E : fail → Prop) s k :
  Inv s → absent s k → ((two32 ≤ used s + 2)%N → E SlabFull) →
  wp E (new_ph s (hash P k) k) (λ '(s', sh),
    let t := ph_idx sh in
    ph_id sh = sh_nph s ∧ ph_hash sh = hash P k ∧
    Inv s' ∧ added (its_of s) (its_of s') t (Placeholder (Pla k Cold sh)) ∧
    (∀ t', mapped s' t' ↔ t' = t ∨ mapped s t') ∧ slots_ok s s' ∧ 
    cfg s' = cfg s ∧ stats s' = stats s ∧ sh_nph s' = (sh_nph s + 1)%N).
Proof.
  intros (rs & fl & HI) Ha HE. unfold new_ph. simpl. apply wp_bind. eapply wp_mono.
  { apply (RI_insert E _ _ _ (Placeholder (Pla k Cold (Plh (hash P k) (next_free (sh_ents s)) (sh_nph s)))) (i_ri _ _ _ HI)).
    intros Hfull ->. apply HE. rewrite (fl_nil_used _ _ HI). unfold slots. rewrite length_its. lia. }
  intros [sl1 t] (Htn & Hni & Hit & HR1). rewrite <-Htn in *. rewrite bool_decide_true by done. simpl.
  set (p := Pla k Cold (Plh (hash P k) t (sh_nph s))) in *.
  assert (added (its_of s) (items sl1) t (Placeholder p)) as Hadd by (apply added_intro; unfold its_of; tauto).
  destruct Hadd as (Hn & Ht & Hfr & Hsum & Hkv).
  erewrite map_insert_ok; [|simpl; apply HI|].
  2:{ intros t' e Hlive. unfold its_of; simpl. apply Hfr; [|done]. intros ->. by eapply Hn. }
  simpl. set (m' := Table _ _). set (s' := set_map _ _).
  assert (s' = mk s m' sl1 Hot (sh_hot s) (sh_ghost_head s) (sh_nnr s) (sh_nph s + 1)) as -> by done.
  destruct (i_acc _ _ _ HI) as [HAw HAn HAg].
  split_and!; try done.
  - exists rs, (tail fl). eapply mk_inv; try done.
    + apply (i_heads _ _ _ HI RHot).
    + apply (i_heads _ _ _ HI RGhost).
    + intros r0 t'. destruct (decide (t' = t)) as [->|Hne].
      * split; [by intros ?%Hni|]. intros (e & He & Hc). rewrite Ht in He. by simplify_eq.
      * rewrite (i_memb _ _ _ HI r0 t').
        split; intros (e & He & Hc); exists e; split; try done; by apply Hfr in He.
    + rewrite Hsum. simpl. rewrite N.add_0_r. apply (HAw Hot).
    + rewrite Hsum. simpl. rewrite N.add_0_r. apply (HAn Hot).
    + rewrite Hsum. simpl. lia.
    + rewrite Hsum. simpl. lia.
    + rewrite Hsum, HAg. simpl. lia.
    + apply HI.
    + simpl. change (hash P k) with (hash_of_entry (Placeholder p)).
      eapply (MI_add LW); [apply HI|done|done| |lia| |].
      * intros t' e0 Hne. by apply Hfr.
      * simpl. intros k0 [= <-] t2 e2 k2 H1 H2 H3. by eapply Ha.
      * intros p' [= <-]. simpl. split_and!; [done|done|lia|lia].
  - intros t'. unfold mapped. simpl. rewrite elem_of_cons. done.
  - unfold slots_ok, slots, used, its_of; simpl. fold (its_of s).
    destruct Hit as [(_ & _ & ->)|(-> & _ & ->)].
    + rewrite insert_length. unfold its_of. lia.
    + rewrite esum_app. simpl. pose proof (fl_nil_used _ _ HI) as Hfu. unfold used, slots in Hfu.
      unfold its_of in *. rewrite app_length. simpl. rewrite Hfu. unfold one. lia.
Qed.

(* ---- a pending entry becomes unreachable ---- *)
Lemma unmap_spec s t p : Inv s → its_of s !! t = Some (Some (Placeholder p)) →
  Inv (set_map s (tremove (sh_map s) t)).
Proof.
  intros (rs & fl & HI) Ht. exists rs, fl. split; simpl; [apply HI|apply (i_heads _ _ _ HI)|apply HI| |apply HI|].
  - destruct (i_acc _ _ _ HI) as [A B C]. split; [intros []; [apply (A Hot)|apply (A Cold)]|intros []; [apply (B Hot)|apply (B Cold)]|done].
  - eapply (MI_unmap (sh_map s)); [apply HI|done].
Qed.
End enter.
