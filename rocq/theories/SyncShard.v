(* What a critical section of the sync cache does to its shard. *)
From Verif Require Export SyncSpec UnsyncProofs.

Section syncshard.
Context {P : Params} (LW : Lawful P) (PI : ptr_ids P = true).
Notation K := (K P). Notation V := (V P). Notation RS := (RS P).
Notation shard := (shard P).
Implicit Types (s : shard) (k : K) (v : V) (rs : RS) (p : plh) (id : N) (x : sect P) (r : xret P).

(* the key of the pending load id *)
Definition has_id s id (t : nat) : bool :=
  match ph_at s t with Some (q, b) => b && (ph_id (p_shared q) =? id)%N | None => false end.
Definition pend_of s id : option K :=
  match list_find (λ t, has_id s id t = true) (seq 0 (length (its_of s))) with
  | Some (_, t) => match ph_at s t with Some (q, _) => Some (p_key q) | None => None end
  | None => None
  end.
Definition abs s : sst P := SSt (sh_iter s) (pend_of s) (sh_nph s).

Lemma ph_id_inj s t t' q q' b b' : Inv s → ph_at s t = Some (q, b) → ph_at s t' = Some (q', b') →
  ph_id (p_shared q) = ph_id (p_shared q') → t = t'.
Proof.
  intros (rs & fl & HI) H1 H2 Hid. apply ph_at_Some in H1 as [H1 _]. apply ph_at_Some in H2 as [H2 _].
  by eapply (m_ids _ _ _ (i_map _ _ _ HI)).
Qed.
Lemma ph_id_lt s t q b : Inv s → ph_at s t = Some (q, b) → (ph_id (p_shared q) < sh_nph s)%N ∧ ph_idx (p_shared q) = t.
Proof.
  intros (rs & fl & HI) H1. apply ph_at_Some in H1 as [H1 _]. by destruct (m_ph _ _ _ (i_map _ _ _ HI) _ _ H1) as (? & ? & ?).
Qed.
Lemma pend_Some s id k : Inv s →
  pend_of s id = Some k ↔ ∃ t q, ph_at s t = Some (q, true) ∧ ph_id (p_shared q) = id ∧ p_key q = k.
Proof.
  intros HI. unfold pend_of. destruct (list_find _ _) as [[i t]|] eqn:Hf.
  - apply list_find_Some in Hf as (Hi & Hp & _). unfold has_id in Hp. destruct (ph_at s t) as [[q [|]]|] eqn:Hq; try done.
    simpl in Hp. apply N.eqb_eq in Hp. split.
    + intros [= <-]. eauto.
    + intros (t' & q' & Hq' & Hid & <-). rewrite <-Hp in Hid. symmetry in Hid.
      pose proof (ph_id_inj s _ _ _ _ _ _ HI Hq Hq' Hid). subst t'. congruence.
  - split; [done|]. intros (t & q & Hq & Hid & <-). exfalso. apply list_find_None in Hf. rewrite Forall_forall in Hf.
    apply (Hf t); [|by unfold has_id; rewrite Hq; simpl; apply N.eqb_eq]. apply elem_of_seq. apply ph_at_Some in Hq as [Hq _]. apply lookup_lt_Some in Hq. lia.
Qed.
Lemma pend_None s id : Inv s → pend_of s id = None ↔ ∀ t q, ph_at s t = Some (q, true) → ph_id (p_shared q) ≠ id.
Proof.
  intros HI. split.
  - intros Hn t q Hq Hid. assert (pend_of s id = Some (p_key q)); [|congruence]. apply pend_Some; eauto.
  - intros H. destruct (pend_of s id) as [k|] eqn:E; [|done]. apply pend_Some in E as (t & q & Hq & Hid & _); [|done]. by destruct (H _ _ Hq).
Qed.
Lemma pend_ext s s' : Inv s → Inv s' → (∀ t, ph_at s' t = ph_at s t) → same_pend (pend_of s') (pend_of s).
Proof.
  intros HI HI' H id. destruct (pend_of s id) as [k|] eqn:E.
  - apply pend_Some in E as (t & q & Hq & ?); [|done]. apply pend_Some; [done|]. rewrite <-H in Hq. eauto.
  - apply pend_None; [done|]. intros t q. rewrite H. by apply pend_None.
Qed.
Lemma pend_del s s' k : Inv s → Inv s' → (∀ t, ph_at s' t = ph_del k (ph_at s t)) → same_pend (pend_of s') (pdel k (pend_of s)).
Proof.
  intros HI HI' H id. unfold pdel. destruct (pend_of s id) as [k'|] eqn:E.
  - apply pend_Some in E as (t & q & Hq & Hid & <-); [|done]. destruct (keqb P k (p_key q)) eqn:Hk.
    + apply pend_None; [done|]. intros t' q' Hq' Hid'. rewrite H in Hq'.
      destruct (decide (t' = t)) as [->|Hne]; [rewrite Hq in Hq'; simpl in Hq'; by rewrite Hk in Hq'|].
      assert (ph_at s t' = Some (q', true)) as Hq2.
      { destruct (ph_at s t') as [[q2 [|]]|]; simpl in Hq'; try done. by destruct (keqb P k (p_key q2)). }
      destruct Hne. eapply (ph_id_inj s); [done|exact Hq2|exact Hq|congruence].
    + apply pend_Some; [done|]. exists t, q. split_and!; try done. by rewrite H, Hq; simpl; rewrite Hk.
  - apply pend_None; [done|]. intros t q. rewrite H. intros Hq. eapply (proj1 (pend_None s id HI) E t).
    destruct (ph_at s t) as [[q2 [|]]|]; simpl in Hq; try done. by destruct (keqb P k (p_key q2)).
Qed.
Lemma pend_nil s' : Inv s' → (∀ t, ph_at s' t = None) → same_pend (pend_of s') (λ _, None).
Proof. intros HI H id. apply pend_None; [done|]. intros t q. by rewrite H. Qed.

(* ---- handles ---- *)
(* a placeholder that has the identity of the handle p is the one of p, and can be found *)
Definition hgood s p : Prop :=
  ∀ t q b, ph_at s t = Some (q, b) → ph_id (p_shared q) = ph_id p → p_shared q = p ∧ b = true.
Lemma same_as_id p q : same_as (P:=P) p q = true ↔ ph_id p = ph_id q.
Proof. unfold same_as. rewrite PI. apply bool_decide_eq_true. Qed.
Lemma hgood_good s p : hgood s p → good_handle s p.
Proof. intros H q b Hq Hs. apply same_as_id in Hs. destruct (H _ _ _ Hq Hs). done. Qed.
Lemma hgood_owned s p : Inv s → hgood s p → owned s p = pend_of s (ph_id p).
Proof.
  intros HI Hg. unfold owned. destruct (ph_at s (ph_idx p)) as [[q b]|] eqn:Hq.
  - destruct (same_as (p_shared q) p) eqn:Hs.
    + apply same_as_id in Hs. destruct (Hg _ _ _ Hq Hs) as [<- ->]. symmetry. apply pend_Some; eauto.
    + symmetry. apply pend_None; [done|]. intros t q' Hq' Hid. destruct (Hg _ _ _ Hq' Hid) as [Hp _].
      destruct (ph_id_lt _ _ _ _ HI Hq') as [_ Ht]. rewrite Hp in Ht. subst t. rewrite Hq in Hq'. injection Hq' as <- _.
      rewrite Hp in Hs. by rewrite same_as_refl in Hs.
  - symmetry. apply pend_None; [done|]. intros t q' Hq' Hid. destruct (Hg _ _ _ Hq' Hid) as [Hp _].
    destruct (ph_id_lt _ _ _ _ HI Hq') as [_ Ht]. rewrite Hp in Ht. subst t. congruence.
Qed.

(* how placeholders evolve *)
Definition evolves s x r s' : Prop := ∀ t q b, ph_at s' t = Some (q, b) →
  ph_at s t = Some (q, b) ∨
  (r = XNew (p_shared q) ∧ b = true ∧ ph_id (p_shared q) = sh_nph s) ∨
  (∃ p, x = XDrop p ∧ b = false ∧ ph_at s t = Some (q, true) ∧ p_shared q = p).
Record xok s x r s' : Prop := {
  xo_inv : Inv s';
  xo_cfg : cfg s' = cfg s;
  xo_does : sdoes (sh_capacity s) (sh_target_hot s) (abs s) (op_of x) (res_of r) (abs s');
  xo_ph : evolves s x r s';
  xo_nph : (sh_nph s ≤ sh_nph s')%N;
  xo_new : ∀ p, r = XNew p → ph_id p = sh_nph s ∧ hgood s' p ∧ (∃ q, ph_at s' (ph_idx p) = Some (q, true) ∧ p_shared q = p);
  xo_wait : ∀ p, r = XWait p → ∃ q, ph_at s' (ph_idx p) = Some (q, true) ∧ p_shared q = p;
  xo_stale : ∀ v, r = XStale v → s' = s;
  xo_slots : (slots s' ≤ N.max (slots s) (used s + 1))%N;
  xo_used : (used s' ≤ used s + 1)%N;
}.
Definition xfails s x (e : fail) : Prop :=
  match e with
  | SlabFull => match x with XCmd _ | XJoin _ => (two32 ≤ used s + 2)%N | _ => False end
  | WeightOvf =>
      match x with
      | XCmd m => may_overflow (sh_capacity s) (sh_target_hot s) (sh_iter s) m
      | XFill rs p _ v _ => ∃ k, pend_of s (ph_id p) = Some k ∧ in_overflow (sh_target_hot s) (sh_iter s) rs k v
      | _ => False
      end
  | _ => False
  end.
Definition handle_of x : option plh := match x with XFill _ p _ _ _ | XDrop p => Some p | _ => None end.
Definition sync_sect x : Prop := match x with XCmd m => sync_cmd m = true | _ => True end.

Lemma cmd_ph s m s' o : Inv s → sync_cmd m = true → exec s m = Ok (s', o) →
  sh_nph s' = sh_nph s ∧
  ∀ t, ph_at s' t = match m with
    | CRemove k => ph_del k (ph_at s t)
    | CInsert rs k v _ => if (admission (sh_target_hot s) rs k v).2 then ph_at s t else ph_del k (ph_at s t)
    | CClear => None
    | _ => ph_at s t
    end.
Proof.
  intros HI Hs He. destruct m as [k|k|k|k f|k f|k|rs k v soft wl|rs k v wl|f| | | |rs k w|rs k w f|rs k g|rs k f g]; try done; cbn [exec] in He.
  - unfold u_contains in He. rewrite (sh_contains_spec LW) in He by done. simpl in He. by injection He as <- _.
  - unfold u_get in He. destruct (sh_get_spec LW s k HI) as (s1 & Hg & Hq & _). rewrite Hg in He. simpl in He. injection He as <- _.
    split; [apply Hq|apply Hq].
  - unfold u_peek in He. rewrite (sh_peek_spec LW) in He by done. simpl in He. by injection He as <- _.
  - unfold u_remove in He. destruct (sh_remove_spec LW s k HI) as (s1 & Hg & _ & Hst & _ & Hph & _). rewrite Hg in He. simpl in He. injection He as <- _.
    split; [|done]. unfold static in Hst. congruence.
  - unfold u_replace in He. pose proof (sh_insert_spec LW (λ _, True) s (Lcs rs []) k v (Replace soft) HI) as H.
    destruct (sh_insert s _ _ _ _ _) as [[[s1 l1] o1]|]; [|done]. simpl in *.
    destruct H as (_ & Hst & _ & Hph & _); [done|done|]. rewrite orb_true_r in Hph.
    assert (s' = s1) as -> by (by destruct o1; injection He as <- _). split; [|done]. unfold static in Hst. congruence.
  - unfold u_insert in He. pose proof (sh_insert_spec LW (λ _, True) s (Lcs rs []) k v Insert HI) as H.
    destruct (sh_insert s _ _ _ _ _) as [[[s1 l1] o1]|]; [|done]. simpl in *.
    destruct H as (_ & Hst & _ & Hph & _); [done|done|]. rewrite orb_false_r in Hph.
    destruct (assert _); [|done]. simpl in He. injection He as <- _. split; [|done]. unfold static in Hst. congruence.
  - destruct (sh_retain_spec LW s f HI) as (s1 & Hg & [A B C D] & _). rewrite Hg in He. simpl in He. injection He as <- _.
    split; [|done]. unfold static in B. congruence.
  - unfold sh_clear in He. destruct (sh_drain_spec s HI) as (s1 & Hg & _ & Hst & _ & Hph & _). rewrite Hg in He. simpl in He. injection He as <- _.
    split; [|done]. unfold static in Hst. congruence.
  - destruct (sh_reserve_spec s HI) as (s1 & Hg & Hq & _). rewrite Hg in He. simpl in He. injection He as <- _. split; apply Hq.
Qed.
Lemma ph_del_Some k s t q b : ph_del k (ph_at s t) = Some (q, b) → ph_at s t = Some (q, b).
Proof. destruct (ph_at s t) as [[q2 [|]]|]; simpl; try done. by destruct (keqb P k (p_key q2)). Qed.
Lemma quiet_abs s s' : Inv s → quiet s s' → sh_iter s' = sh_iter s ∧ same_pend (pend_of s') (pend_of s) ∧ sh_nph s' = sh_nph s.
Proof. intros HI [A B C D E F G]. split_and!; try done. by apply pend_ext. Qed.

Lemma xexec_spec s x : Inv s → sync_sect x → (∀ p, handle_of x = Some p → hgood s p) →
  wp (xfails s x) (xexec s x) (λ '(s', r), xok s x r s').
Proof.
  intros HI Hsx Hh. destruct x as [m|k|rs p ref v wl|p]; cbn [xexec].
  - pose proof (exec_spec LW s m HI) as H. pose proof (λ s' o, cmd_ph s m s' o HI Hsx) as Hph.
    destruct (exec s m) as [[s' o]|e]; simpl in *.
    2:{ destruct e; simpl in *; try done. }
    destruct (Hph s' o eq_refl) as [Hn Hp]. destruct H as [A B C D E F G I].
    split; try done; try lia.
    + simpl. split_and!; try done. 
      assert (∀ k, (∀ t, ph_at s' t = ph_del k (ph_at s t)) → same_pend (pend_of s') (pdel k (pend_of s))) as Hd by (intros; by apply pend_del).
      assert ((∀ t, ph_at s' t = ph_at s t) → same_pend (pend_of s') (pend_of s)) as He by (by apply pend_ext).
      destruct m; try done; simpl; auto.
      * destruct (admission _ _ _ _).2; auto.
      * by apply pend_nil.
    + intros t q b. rewrite Hp. intros Hq. left. destruct m; try done; try by eapply ph_del_Some.
      destruct (admission _ _ _ _).2; [done|by eapply ph_del_Some].
  - apply wp_bind. eapply wp_mono; [by apply (upsert_spec LW (xfails s (XJoin k)) s k HI)|].
    intros [s' r] Hup. inversion Hup as [t ko vo r0 Hf Hq Hst Ht Hk Hv|q Hf Hq Hst Hph Hk|q Hf Hno HI1 Hcfg Hst Hit Hk Hid Hhs Hn Hph Hph0 Hsl Hus]; subst.
    + destruct (quiet_abs _ _ HI Hq) as (H1 & H2 & H3). destruct Hq as [A B C D E F G]. split; try done; try lia.
      * simpl. unfold value_of. rewrite Hf. by rewrite H1.
      * intros t' q' b'. rewrite D. by left.
    + destruct (quiet_abs _ _ HI Hq) as (H1 & H2 & H3). destruct Hq as [A B C D E F G]. split; try done; try lia.
      * simpl. unfold value_of. rewrite Hf, H1. split_and!; try done. exists (p_key q). split; [|done]. apply pend_Some; eauto.
      * intros t' q' b'. rewrite D. by left.
      * intros p [= <-]. exists q. by rewrite D.
    + assert (∀ t q' b', ph_at s t = Some (q', b') → (ph_id (p_shared q') < sh_nph s)%N) as Hlt.
      { intros t q' b' Hq'. by eapply ph_id_lt. }
      split; try done; try lia.
      * simpl. unfold value_of. rewrite Hf. split_and!; try done.
        -- intros i k' Hi. apply pend_Some in Hi as (t & q' & Hq' & _ & <-); [|done]. by apply (Hno t).
        -- intros i. unfold pset. case_decide as Hd.
           ++ apply pend_Some; [done|]. exists (ph_idx (p_shared q)), q. rewrite Hph, decide_True by done. done.
           ++ destruct (pend_of s i) as [k'|] eqn:Ei.
              ** apply pend_Some in Ei as (t & q' & Hq' & Hid' & Hk'); [|done]. apply pend_Some; [done|]. exists t, q'.
                 rewrite Hph. rewrite decide_False; [done|]. intros ->. congruence.
              ** apply pend_None; [done|]. intros t q'. rewrite Hph. case_decide as Hd2; [intros [= <-]; congruence|].
                 by apply pend_None.
      * intros t q' b'. rewrite Hph. case_decide as Hd; [|by left]. intros [= <- <-]. right. left. done.
      * intros p [= <-]. split; [done|]. split.
        -- intros t q' b'. rewrite Hph. case_decide as Hd; [by intros [= <- <-]|]. intros Hq' Hid'. specialize (Hlt _ _ _ Hq'). lia.
        -- exists q. by rewrite Hph, decide_True.
      * unfold slots_ok in Hsl. lia.
  - specialize (Hh p eq_refl). pose proof (hgood_owned s p HI Hh) as Ho. apply wp_bind.
    pose proof (replace_placeholder_spec LW (xfails s (XFill rs p ref v wl)) s (Lcs rs []) p ref v HI (hgood_good _ _ Hh)) as H.
    rewrite Ho in H. destruct (pend_of s (ph_id p)) as [k|] eqn:Ek.
    + eapply wp_mono; [apply H|].
      { intros k0 rs1 es v1 [= <-] Ha HW. exists k. split; [done|]. by exists rs1, es, v1. }
      intros [[s' l'] o] (HI' & Hst & -> & (es & Hl & Hld) & Hph & Hsl & Hus & _).
      destruct (cfg_static _ _ Hst) as [Hc' Hst']. assert (sh_nph s' = sh_nph s) as Hnph by (unfold static in Hst; congruence).
      split; try done; try lia.
      * simpl. exists k, es, (lrs l'). split_and!; try done.
        -- destruct l' as [rs' lg]. simpl in *. subst lg. done.
        -- intros i. unfold pset. case_decide as Hd.
           ++ subst i. apply pend_None; [done|]. intros t q. rewrite Hph. case_decide as Hd; [done|]. intros Hq Hid.
              destruct (Hh _ _ _ Hq Hid) as [<- _]. destruct (ph_id_lt _ _ _ _ HI Hq) as [_ Ht]. congruence.
           ++ destruct (pend_of s i) as [k'|] eqn:Ei.
              ** apply pend_Some in Ei as (t & q' & Hq' & Hid' & Hk'); [|done]. apply pend_Some; [done|]. exists t, q'.
                 rewrite Hph. rewrite decide_False; [done|]. intros ->.
                 apply pend_Some in Ek as (t2 & q2 & Hq2 & Hid2 & _); [|done]. destruct (Hh _ _ _ Hq2 Hid2) as [<- _].
                 destruct (ph_id_lt _ _ _ _ HI Hq2) as [_ Ht2]. rewrite Ht2 in Hq'. congruence.
              ** apply pend_None; [done|]. intros t q'. rewrite Hph. case_decide as Hd2; [done|]. by apply pend_None.
      * intros t q b. rewrite Hph. case_decide; [done|]. by left.
    + rewrite H by done. simpl. split; try done; try lia. by left.
  - specialize (Hh p eq_refl).
    destruct (remove_placeholder_spec LW s p HI (hgood_good _ _ Hh)) as (s' & -> & HI' & Hit & Hst & Hsl & Hus & Hph). simpl.
    destruct (cfg_static _ _ Hst) as [Hc' Hst']. assert (sh_nph s' = sh_nph s) as Hnph by (unfold static in Hst; congruence).
    assert (∀ t q b, ph_at s' t = Some (q, b) → ph_at s t = Some (q, b) ∨ (b = false ∧ ph_at s t = Some (q, true) ∧ p_shared q = p)) as Hev.
    { intros t q b. rewrite Hph. unfold ph_unmap. destruct (ph_at s t) as [[q0 b0]|] eqn:Hq; [|done].
      case_decide as Hd; [|by left]. intros [= <- <-]. destruct (same_as (p_shared q0) p) eqn:Hs.
      - apply same_as_id in Hs. destruct (Hh _ _ _ Hq Hs) as [<- ->]. right. done.
      - rewrite andb_true_r. by left. }
    split; try done; try lia.
    + simpl. rewrite Hit. split_and!; try done. intros i. unfold pset. case_decide as Hd.
      * subst i. apply pend_None; [done|]. intros t q Hq Hid. destruct (Hev _ _ _ Hq) as [Hq0|[? _]]; [|done].
        destruct (Hh _ _ _ Hq0 Hid) as [<- _]. destruct (ph_id_lt _ _ _ _ HI Hq0) as [_ Ht].
        rewrite Hph in Hq. unfold ph_unmap in Hq. rewrite Hq0 in Hq. rewrite decide_True in Hq by done. by rewrite same_as_refl in Hq.
      * destruct (pend_of s i) as [k'|] eqn:Ei.
        -- apply pend_Some in Ei as (t & q' & Hq' & Hid' & Hk'); [|done]. apply pend_Some; [done|]. exists t, q'.
           split; [|done]. rewrite Hph. unfold ph_unmap. rewrite Hq'. case_decide as Hd2; [|done].
           destruct (same_as (p_shared q') p) eqn:Hs; [|done]. apply same_as_id in Hs. congruence.
        -- apply pend_None; [done|]. intros t q' Hq'. destruct (Hev _ _ _ Hq') as [Hq0|[? _]]; [|done]. by apply (proj1 (pend_None _ _ HI) Ei t).
    + intros t q b Hq. destruct (Hev _ _ _ Hq) as [?|(? & ? & ?)]; [by left|]. right. right. exists p. done.
Qed.
End syncshard.
