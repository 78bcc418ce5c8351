(* The representation invariant of a shard, and list/sum/map lemmas to maintain it. *)
From Verif Require Export Shard Rings Spec.

Inductive rid := RHot | RCold | RGhost.
Global Instance rid_eq_dec : EqDecision rid.
Proof. solve_decision. Defined.
Definition st_rid (st : rstate) : rid := match st with Hot => RHot | Cold => RCold end.
Lemma st_rid_inj st st' : st_rid st = st_rid st' → st = st'.
Proof. by destruct st, st'. Qed.

Section inv.
Context {P : Params} (LW : Lawful P).
Notation K := (K P). Notation V := (V P).
Notation entry := (entry P). Notation shard := (shard P).
Implicit Types (s : shard) (e : entry) (its : list (option entry)) (rs : rid → list nat) (fl : list nat) (m : list (N * nat)).

Definition its_of s : list (option entry) := items (sh_ents s).

(* the list an entry belongs to *)
Definition cls e : option rid :=
  match e with
  | Resident r => if (rweight r =? 0)%N then None else Some (st_rid (r_state r))
  | Placeholder _ => None
  | Ghost _ => Some RGhost
  end.
Definition heads s (r : rid) : option nat :=
  match r with RHot => a_head (sh_hot s) | RCold => a_head (sh_cold s) | RGhost => sh_ghost_head s end.

Definition memb rs its : Prop :=
  ∀ r t, t ∈ rs r ↔ ∃ e, its !! t = Some (Some e) ∧ cls e = Some r.

(* sums over the slab *)
Definition oget (f : entry → N) (o : option entry) : N := match o with Some e => f e | None => 0%N end.
Definition esum (f : entry → N) its : N := foldr (λ o a, oget f o + a)%N 0%N its.
Definition wof (st : rstate) e : N :=
  match e with Resident r => if decide (r_state r = st) then rweight r else 0%N | _ => 0%N end.
Definition nof (st : rstate) e : N :=
  match e with Resident r => if decide (r_state r = st) then 1%N else 0%N | _ => 0%N end.
Definition ghn e : N := match e with Ghost _ => 1%N | _ => 0%N end.
(* members of the list of state st *)
Definition nzn (st : rstate) e : N :=
  match e with
  | Resident r => if decide (r_state r = st) then (if (rweight r =? 0)%N then 0%N else 1%N) else 0%N
  | _ => 0%N end.

Definition ekey e : option K :=
  match e with Resident r => Some (r_key r) | Placeholder p => Some (p_key p) | Ghost _ => None end.
Definition is_ph e : bool := match e with Placeholder _ => true | _ => false end.

Record MI m its (nph : N) : Prop := {
  m_nodup : NoDup m.*2;
  m_live : ∀ h t, (h, t) ∈ m → ∃ e, its !! t = Some (Some e) ∧ hash_of_entry e = h;
  m_all : ∀ t e, its !! t = Some (Some e) → is_ph e = false → (hash_of_entry e, t) ∈ m;
  m_uniq : ∀ t1 t2 e1 e2 k1 k2, t1 ∈ m.*2 → t2 ∈ m.*2 →
     its !! t1 = Some (Some e1) → its !! t2 = Some (Some e2) →
     ekey e1 = Some k1 → ekey e2 = Some k2 → keqb P k1 k2 = true → t1 = t2;
  m_ph : ∀ t p, its !! t = Some (Some (Placeholder p)) →
     ph_idx (p_shared p) = t ∧ ph_hash (p_shared p) = hash P (p_key p) ∧ (ph_id (p_shared p) < nph)%N;
  m_ids : ∀ t t' p p', its !! t = Some (Some (Placeholder p)) → its !! t' = Some (Some (Placeholder p')) →
     ph_id (p_shared p) = ph_id (p_shared p') → t = t';
}.

Record ACC s its : Prop := {
  acc_w : ∀ st, a_weight (sh_acct s st) = esum (wof st) its;
  acc_n : ∀ st, a_num (sh_acct s st) = esum (nof st) its;
  acc_g : sh_nnr s = esum ghn its;
}.

Record Inv' s rs fl : Prop := {
  i_ri : RI (sh_ents s) rs fl;
  i_heads : ∀ r, heads s r = head (rs r);
  i_memb : memb rs (its_of s);
  i_acc : ACC s (its_of s);
  i_ghost : (sh_nnr s ≤ sh_cap_nr s)%N;
  i_map : MI (tpairs (sh_map s)) (its_of s) (sh_nph s);
}.
Definition Inv s : Prop := ∃ rs fl, Inv' s rs fl.

(* ---- sums ---- *)
Lemma esum_ge f its t e : its !! t = Some (Some e) → (f e ≤ esum f its)%N.
Proof.
  revert t. induction its as [|o its IH]; intros [|t]; simpl; intros; simplify_eq/=.
  - unfold esum; simpl. lia.
  - specialize (IH _ H). unfold esum in *; simpl. lia.
Qed.
Lemma esum_insert f its t o o' :
  its !! t = Some o → (esum f (<[t := o']> its) + oget f o = esum f its + oget f o')%N.
Proof.
  revert t. induction its as [|x its IH]; intros [|t]; simpl; intros; simplify_eq/=.
  - unfold esum; simpl. lia.
  - specialize (IH _ H). unfold esum in *; simpl. lia.
Qed.
Lemma esum_upd f its t e o' :
  its !! t = Some (Some e) → esum f (<[t := o']> its) = (esum f its - f e + oget f o')%N.
Proof.
  intros H. pose proof (esum_insert f its t _ o' H) as H1. pose proof (esum_ge f its t e H). simpl in *. lia.
Qed.
Lemma esum_upd_None f its t o' :
  its !! t = Some None → esum f (<[t := o']> its) = (esum f its + oget f o')%N.
Proof.
  intros H. pose proof (esum_insert f its t _ o' H) as H1. simpl in *. lia.
Qed.
Lemma esum_app f its o : esum f (its ++ [o]) = (esum f its + oget f o)%N.
Proof. induction its as [|x its IH]; unfold esum in *; simpl in *; lia. Qed.
Lemma esum_le f g its : (∀ e, (f e ≤ g e)%N) → (esum f its ≤ esum g its)%N.
Proof.
  intros H. induction its as [|o its IH]; unfold esum in *; simpl in *; [lia|].
  destruct o as [e|]; simpl; [specialize (H e)|]; lia.
Qed.
Lemma esum_add f g h its : (∀ e, (f e + g e = h e)%N) → (esum f its + esum g its = esum h its)%N.
Proof.
  intros H. induction its as [|o its IH]; unfold esum in *; simpl in *; [lia|].
  destruct o as [e|]; simpl; [specialize (H e)|]; lia.
Qed.
Lemma esum_zero f its : (∀ t e, its !! t = Some (Some e) → f e = 0%N) → esum f its = 0%N.
Proof.
  induction its as [|o its IH]; intros H; [done|]. unfold esum in *; simpl in *.
  rewrite IH by (intros t e Ht; by apply (H (S t))).
  destruct o as [e|]; simpl; [|lia]. rewrite (H 0 e); [lia|done].
Qed.
Lemma esum_pos f its : esum f its ≠ 0%N → ∃ t e, its !! t = Some (Some e) ∧ f e ≠ 0%N.
Proof.
  induction its as [|o its IH]; [done|]. intros H. unfold esum in *; simpl in *.
  destruct o as [e|]; simpl in *.
  - destruct (decide (f e = 0%N)) as [E|E].
    + destruct IH as (t & e' & ? & ?); [lia|]. exists (S t), e'. done.
    + exists 0, e. done.
  - destruct IH as (t & e' & ? & ?); [lia|]. exists (S t), e'. done.
Qed.

(* ---- membership ---- *)
Lemma memb_insert rs rs' its t o :
  memb rs its → t < length its →
  (∀ r t', t' ≠ t → t' ∈ rs' r ↔ t' ∈ rs r) →
  (∀ r, t ∈ rs' r ↔ ∃ e, o = Some e ∧ cls e = Some r) →
  memb rs' (<[t := o]> its).
Proof.
  intros Hm Hlt Ho Ht r t'. destruct (decide (t' = t)) as [->|Hne].
  - rewrite list_lookup_insert by done. rewrite Ht. naive_solver.
  - rewrite list_lookup_insert_ne by done. rewrite Ho by done. apply Hm.
Qed.
Lemma memb_app rs rs' its t o :
  memb rs its → t = length its →
  (∀ r t', t' ≠ t → t' ∈ rs' r ↔ t' ∈ rs r) →
  (∀ r, t ∈ rs' r ↔ ∃ e, o = Some e ∧ cls e = Some r) →
  memb rs' (its ++ [o]).
Proof.
  intros Hm -> Ho Ht r t'. destruct (decide (t' = length its)) as [->|Hne].
  - rewrite lookup_app_r, Nat.sub_diag by lia. simpl. rewrite Ht. naive_solver.
  - rewrite Ho by done. rewrite (Hm r t'). destruct (decide (t' < length its)).
    + by rewrite lookup_app_l.
    + rewrite (lookup_ge_None_2 its) by lia. rewrite (lookup_ge_None_2 (its ++ [o])); [naive_solver|].
      rewrite app_length; simpl; lia.
Qed.
Lemma rupd_elem_ne rs r L t' r' :
  (t' ∈ L ↔ t' ∈ rs r) → t' ∈ rupd rs r L r' ↔ t' ∈ rs r'.
Proof.
  intros H. destruct (decide (r' = r)) as [->|]; [by rewrite rupd_eq|by rewrite rupd_ne].
Qed.

Lemma memb_cls rs its t e r : memb rs its → its !! t = Some (Some e) → t ∈ rs r ↔ cls e = Some r.
Proof. intros Hm Ht. rewrite (Hm r t). naive_solver. Qed.

Lemma cls_nz r : cls (Resident r) = Some (st_rid (r_state r)) ↔ rweight r ≠ 0%N.
Proof. simpl. destruct (N.eqb_spec (rweight r) 0); split; intros; try done. Qed.
Lemma cls_z r : rweight r = 0%N → cls (Resident r) = None.
Proof. simpl. by intros ->. Qed.

(* ---- the map ---- *)
Lemma elem_snd m h t : (h, t) ∈ m → t ∈ m.*2.
Proof. intros. apply elem_of_list_fmap. by exists (h, t). Qed.
Lemma m_tok m its nph t : MI m its nph → t ∈ m.*2 → ∃ e, its !! t = Some (Some e) ∧ (hash_of_entry e, t) ∈ m.
Proof.
  intros HM Ht. apply elem_of_list_fmap in Ht as ([h t'] & -> & Hin). simpl.
  destruct (m_live _ _ _ HM _ _ Hin) as (e & He & Hh). exists e. split; [done|]. by rewrite Hh.
Qed.

(* replacing a live entry by one with the same hash and an equal (or no) key *)
Lemma MI_set m its nph nph' t e e' :
  MI m its nph → its !! t = Some (Some e) → hash_of_entry e' = hash_of_entry e →
  (nph ≤ nph')%N →
  (is_ph e = true → is_ph e' = false → t ∈ m.*2) →
  (∀ k', ekey e' = Some k' →
     (∃ k, ekey e = Some k ∧ keqb P k k' = true) ∨
     (∀ t2 e2 k2, t2 ∈ m.*2 → its !! t2 = Some (Some e2) → ekey e2 = Some k2 → keqb P k' k2 = false)) →
  (∀ p, e' = Placeholder p → ph_idx (p_shared p) = t ∧ ph_hash (p_shared p) = hash P (p_key p) ∧
      (ph_id (p_shared p) < nph')%N ∧
      (∀ t2 p2, t2 ≠ t → its !! t2 = Some (Some (Placeholder p2)) → ph_id (p_shared p2) ≠ ph_id (p_shared p))) →
  MI m (<[t := Some e']> its) nph'.
Proof.
  intros HM Ht Hh Hnph Hph Hk Hp.
  assert (t < length its) as Hlt by (by eapply lookup_lt_Some).
  split.
  - apply HM.
  - intros h t' Hin. destruct (m_live _ _ _ HM _ _ Hin) as (e0 & He0 & Hh0).
    destruct (decide (t' = t)) as [->|Hne].
    + exists e'. rewrite list_lookup_insert by done. split; [done|]. congruence.
    + exists e0. by rewrite list_lookup_insert_ne.
  - intros t' e0 He0 Hnp. destruct (decide (t' = t)) as [->|Hne].
    + rewrite list_lookup_insert in He0 by done. simplify_eq. rewrite Hh.
      destruct (is_ph e) eqn:Hpe.
      * destruct (m_tok _ _ _ _ HM (Hph eq_refl Hnp)) as (e1 & He1 & Hin).
        rewrite Ht in He1. by simplify_eq.
      * by apply (m_all _ _ _ HM).
    + rewrite list_lookup_insert_ne in He0 by done. by apply (m_all _ _ _ HM).
  - intros t1 t2 e1 e2 k1 k2 Hin1 Hin2 He1 He2 Hk1 Hk2 Hkk.
    destruct (decide (t1 = t)) as [->|H1], (decide (t2 = t)) as [->|H2].
    + done.
    + rewrite list_lookup_insert in He1 by done. rewrite list_lookup_insert_ne in He2 by done.
      simplify_eq. destruct (Hk _ Hk1) as [(k & Hek & Hkk')|Hno].
      * eapply (m_uniq _ _ _ HM t t2); eauto. by eapply (keqb_trans _ LW).
      * exfalso. assert (keqb P k1 k2 = false) by (eapply (Hno t2); eauto). congruence.
    + rewrite list_lookup_insert in He2 by done. rewrite list_lookup_insert_ne in He1 by done.
      simplify_eq. destruct (Hk _ Hk2) as [(k & Hek & Hkk')|Hno].
      * eapply (m_uniq _ _ _ HM t1 t); eauto. eapply (keqb_trans _ LW); [done|]. by apply (keqb_sym _ LW).
      * exfalso. assert (keqb P k2 k1 = false) by (eapply (Hno t1); eauto).
        apply (keqb_sym _ LW) in Hkk. congruence.
    + rewrite list_lookup_insert_ne in He1, He2 by done. by eapply (m_uniq _ _ _ HM t1 t2).
  - intros t' p He. destruct (decide (t' = t)) as [->|Hne].
    + rewrite list_lookup_insert in He by done. simplify_eq. destruct (Hp p) as (? & ? & ? & ?); done.
    + rewrite list_lookup_insert_ne in He by done.
      destruct (m_ph _ _ _ HM _ _ He) as (? & ? & ?). split_and!; [done|done|lia].
  - intros t1 t2 p1 p2 He1 He2 Hid.
    destruct (decide (t1 = t)) as [->|H1], (decide (t2 = t)) as [->|H2]; [done| | |].
    + rewrite list_lookup_insert in He1 by done. rewrite list_lookup_insert_ne in He2 by done.
      simplify_eq. destruct (Hp p1) as (_ & _ & _ & Hu); [done|]. exfalso. by eapply (Hu t2).
    + rewrite list_lookup_insert in He2 by done. rewrite list_lookup_insert_ne in He1 by done.
      simplify_eq. destruct (Hp p2) as (_ & _ & _ & Hu); [done|]. exfalso. by eapply (Hu t1).
    + rewrite list_lookup_insert_ne in He1, He2 by done. by eapply (m_ids _ _ _ HM t1 t2).
Qed.

(* a simple special case: same key, not turning into or out of a placeholder *)
Lemma MI_set_res m its nph t e e' :
  MI m its nph → its !! t = Some (Some e) → is_ph e = false → is_ph e' = false →
  hash_of_entry e' = hash_of_entry e → (ekey e' = None ∨ ekey e' = ekey e) →
  MI m (<[t := Some e']> its) nph.
Proof.
  intros HM Ht Hp Hp' Hh Hk. eapply MI_set; eauto.
  - congruence.
  - intros k' Hk'. left. destruct Hk as [Hk|Hk]; [congruence|].
    exists k'. split; [congruence|]. apply (keqb_refl _ LW).
  - intros p ->. done.
Qed.

Lemma elem_tremove T t h t' : (h, t') ∈ tpairs (tremove T t) ↔ (h, t') ∈ tpairs T ∧ t' ≠ t.
Proof. simpl. rewrite elem_of_list_filter. simpl. tauto. Qed.
Lemma elem_tremove_snd T t t' : t' ∈ (tpairs (tremove T t)).*2 ↔ t' ∈ (tpairs T).*2 ∧ t' ≠ t.
Proof.
  rewrite !elem_of_list_fmap. split.
  - intros ([h t''] & -> & Hin). apply elem_tremove in Hin as [Hin Hne]. split; [|done]. by exists (h, t'').
  - intros [([h t''] & -> & Hin) Hne]. exists (h, t''). split; [done|]. by apply elem_tremove.
Qed.
Lemma NoDup_tremove T t : NoDup (tpairs T).*2 → NoDup (tpairs (tremove T t)).*2.
Proof.
  simpl. induction (tpairs T) as [|[h t'] m IH]; simpl; [done|].
  intros [Hni Hnd]%NoDup_cons. rewrite filter_cons. destruct (decide _); simpl; [|auto].
  apply NoDup_cons. split; [|auto]. intros Hin. apply Hni.
  apply elem_of_list_fmap in Hin as (x & -> & Hin). apply elem_of_list_filter in Hin as [_ Hin].
  apply elem_of_list_fmap. by exists x.
Qed.

(* removing a mapped entry from both the slab and the table *)
Lemma MI_remove T its nph t :
  MI (tpairs T) its nph → MI (tpairs (tremove T t)) (<[t := None]> its) nph.
Proof.
  intros HM.
  assert (∀ t' e, <[t := None]> its !! t' = Some (Some e) → t' ≠ t ∧ its !! t' = Some (Some e)) as Hl.
  { intros t' e He. destruct (decide (t' = t)) as [->|Hne].
    - exfalso. assert (t < length its).
      { apply lookup_lt_Some in He. by rewrite insert_length in He. }
      by rewrite list_lookup_insert in He.
    - by rewrite list_lookup_insert_ne in He. }
  split.
  - apply NoDup_tremove, HM.
  - intros h t' [Hin Hne]%elem_tremove. rewrite list_lookup_insert_ne by done. by apply (m_live _ _ _ HM).
  - intros t' e He Hp. apply Hl in He as [Hne He]. apply elem_tremove. split; [|done].
    by apply (m_all _ _ _ HM).
  - intros t1 t2 e1 e2 k1 k2 [Hin1 _]%elem_tremove_snd [Hin2 _]%elem_tremove_snd
      [? He1]%Hl [? He2]%Hl. by apply (m_uniq _ _ _ HM).
  - intros t' p [? He]%Hl. by apply (m_ph _ _ _ HM).
  - intros t1 t2 p1 p2 [? He1]%Hl [? He2]%Hl. by apply (m_ids _ _ _ HM).
Qed.

(* unmapping a placeholder *)
Lemma MI_unmap T its nph t p :
  MI (tpairs T) its nph → its !! t = Some (Some (Placeholder p)) →
  MI (tpairs (tremove T t)) its nph.
Proof.
  intros HM Hp. split.
  - apply NoDup_tremove, HM.
  - intros h t' [Hin Hne]%elem_tremove. by apply (m_live _ _ _ HM).
  - intros t' e He Hpe. apply elem_tremove. split; [by apply (m_all _ _ _ HM)|].
    intros ->. rewrite Hp in He. by simplify_eq.
  - intros t1 t2 e1 e2 k1 k2 [Hin1 _]%elem_tremove_snd [Hin2 _]%elem_tremove_snd.
    by apply (m_uniq _ _ _ HM).
  - apply (m_ph _ _ _ HM).
  - apply (m_ids _ _ _ HM).
Qed.

(* adding a fresh entry *)
Lemma MI_add m its its' nph nph' t e :
  MI m its nph → (∀ e0, its !! t ≠ Some (Some e0)) →
  (its' !! t = Some (Some e)) → (∀ t' e0, t' ≠ t → its' !! t' = Some (Some e0) ↔ its !! t' = Some (Some e0)) →
  (nph ≤ nph')%N →
  (∀ k, ekey e = Some k → ∀ t2 e2 k2, t2 ∈ m.*2 → its !! t2 = Some (Some e2) → ekey e2 = Some k2 → keqb P k k2 = false) →
  (∀ p, e = Placeholder p → ph_idx (p_shared p) = t ∧ ph_hash (p_shared p) = hash P (p_key p) ∧
      (nph ≤ ph_id (p_shared p) < nph')%N) →
  MI ((hash_of_entry e, t) :: m) its' nph'.
Proof.
  intros HM Hn Ht Hfr Hnph Hk Hp.
  assert (t ∉ m.*2) as Hnm.
  { intros Hin. destruct (m_tok _ _ _ _ HM Hin) as (e0 & He0 & _). by eapply Hn. }
  split.
  - csimpl. apply NoDup_cons. split; [done|apply HM].
  - intros h t' [Heq|Hin]%elem_of_cons.
    + simplify_eq. eauto.
    + destruct (m_live _ _ _ HM _ _ Hin) as (e0 & He0 & Hh). exists e0. split; [|done].
      apply Hfr; [|done]. intros ->. apply Hnm. by eapply elem_snd.
  - intros t' e0 He0 Hpe. destruct (decide (t' = t)) as [->|Hne].
    + rewrite Ht in He0. simplify_eq. left.
    + right. apply Hfr in He0; [|done]. by apply (m_all _ _ _ HM).
  - intros t1 t2 e1 e2 k1 k2 Hin1 Hin2 He1 He2 Hk1 Hk2 Hkk. csimpl in *.
    rewrite elem_of_cons in Hin1, Hin2.
    destruct (decide (t1 = t)) as [->|H1], (decide (t2 = t)) as [->|H2]; [done| | |].
    + destruct Hin2 as [?|Hin2]; [done|]. apply Hfr in He2; [|done]. rewrite Ht in He1. simplify_eq.
      assert (keqb P k1 k2 = false) by (by eapply Hk). congruence.
    + destruct Hin1 as [?|Hin1]; [done|]. apply Hfr in He1; [|done]. rewrite Ht in He2. simplify_eq.
      assert (keqb P k2 k1 = false) by (by eapply Hk). apply (keqb_sym _ LW) in Hkk. congruence.
    + destruct Hin1 as [?|Hin1], Hin2 as [?|Hin2]; try done.
      apply Hfr in He1, He2; [|done|done]. by eapply (m_uniq _ _ _ HM t1 t2).
  - intros t' p He. destruct (decide (t' = t)) as [->|Hne].
    + rewrite Ht in He. simplify_eq. destruct (Hp p) as (? & ? & ? & ?); [done|]. split_and!; [done|done|lia].
    + apply Hfr in He; [|done]. destruct (m_ph _ _ _ HM _ _ He) as (? & ? & ?). split_and!; [done|done|lia].
  - intros t1 t2 p1 p2 He1 He2 Hid.
    destruct (decide (t1 = t)) as [->|H1], (decide (t2 = t)) as [->|H2]; [done| | |].
    + apply Hfr in He2; [|done]. rewrite Ht in He1. simplify_eq. destruct (Hp p1) as (_ & _ & ? & _); [done|].
      destruct (m_ph _ _ _ HM _ _ He2) as (_ & _ & ?). lia.
    + apply Hfr in He1; [|done]. rewrite Ht in He2. simplify_eq. destruct (Hp p2) as (_ & _ & ? & _); [done|].
      destruct (m_ph _ _ _ HM _ _ He1) as (_ & _ & ?). lia.
    + apply Hfr in He1, He2; [|done|done]. by eapply (m_ids _ _ _ HM t1 t2).
Qed.

(* ---- arithmetic on the accounts ---- *)
Lemma wsub_ok a b : (b ≤ a)%N → wsub a b = Ok (a - b)%N.
Proof. intros. unfold wsub. by rewrite (proj2 (N.leb_le b a)). Qed.
Lemma wadd_ok a b : (a + b < two64)%N → wadd a b = Ok (a + b)%N.
Proof. intros. unfold wadd. by rewrite (proj2 (N.ltb_lt _ _)). Qed.

(* ---- finding entries ---- *)
Lemma scan_ok (l : list nat) (eq : nat → res bool) (f : nat → bool) :
  (∀ t, t ∈ l → eq t = Ok (f t)) → scan l eq = Ok (find (λ t, f t) l).
Proof.
  induction l as [|t l IH]; simpl; intros H; [done|].
  rewrite (H t ltac:(left)); simpl. destruct (f t); [done|]. apply IH. intros; apply H. by right.
Qed.

Lemma map_remove_spec s h t :
  (h, t) ∈ tpairs (sh_map s) → map_remove s h t = Ok (set_map s (tremove (sh_map s) t)).
Proof.
  intros Hin. unfold map_remove, tfind.
  rewrite (scan_ok _ _ (λ i, bool_decide (i = t))) by done. simpl.
  destruct (find _ _) as [i|] eqn:Hf.
  - apply List.find_some in Hf as [_ Hi]. apply bool_decide_eq_true in Hi as ->. done.
  - exfalso. apply (probe_complete _ LW) in Hin.
    assert (bool_decide (t = t) = false) as Hb.
    { apply (List.find_none _ _ Hf t). by apply elem_of_list_In. }
    by rewrite bool_decide_true in Hb.
Qed.

Lemma entry_at_ok s t e : its_of s !! t = Some (Some e) → entry_at s t = Ok e.
Proof. intros H. unfold entry_at. destruct (get_live _ _ _ H) as (n & -> & _). done. Qed.

End inv.
