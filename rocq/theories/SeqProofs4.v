(* More consequences: overshoot, refusals, frames, failures, memory. *)
From Verif Require Export SeqProofs3.

Section seq4.
Context {P : Params} (LW : Lawful P).
Notation K := (K P). Notation V := (V P). Notation RS := (RS P).
Notation shard := (shard P). Notation out := (out P). Notation cmd := (cmd P). Notation contents := (contents P).
Implicit Types (s : shard) (k : K) (v : V) (c : contents) (rs : RS) (es : list (event P)).

(* ---- overshoot ---- *)
Lemma inserts_repairs cap budget b rs c k v es rs' c' :
  inserts cap budget b rs c k v es rs' c' None → ¬ refused budget rs k v →
  (wsum c' ≤ cap)%N ∨ ∀ k' v', (k', v') ∈ c' → weight P k' v' ≠ 0%N → pinned P k' v' = true ∨
    (k' = k ∧ v' = stored budget rs k v).
Proof.
  intros H Hr.
  inversion H as [rs1 es1 v1 c1 Ha Hf Hp|rs1 es1 v1 ko vo c1 Ha Hf Hp|rs1 es1 v1 c1 Ha Hf Hcr Hp
    |rs1 es1 v1 ko vo es2 rs2 c1 Ha Hf He Hw Hn|rs1 es1 v1 es2 rs2 c1 c2 Ha Hf Hcr He Hw Hn Hp|rs1 es1 v1 es2 rs2 c1 Ha Hf Hcr He Hw Hn]; subst.
  - destruct Hr. by eapply admission_refused.
  - destruct Hr. by eapply admission_refused.
  - destruct Hw as [Hw|Hw]; [by left|right]. intros. left. by apply Hw.
  - destruct Hw as [Hw|Hw]; [left; rewrite Hp, wsum_cons; lia|right].
    intros k' v' Hin Hne. rewrite Hp in Hin. apply elem_of_cons in Hin as [[= -> ->]|Hin]; [right|left; by apply Hw].
    split; [done|]. by eapply admission_stored.
  - destruct Hw as [Hw|Hw]; [by left|right]. intros. left. by apply Hw.
Qed.

(* ---- items nobody may evict ---- *)
Lemma inserts_stay cap budget b rs c k v es rs' c' o k0 v0 :
  inserts cap budget b rs c k v es rs' c' o → (k0, v0) ∈ c → keqb P k k0 = false →
  weight P k0 v0 = 0%N ∨ pinned P k0 v0 = true → (k0, v0) ∈ c'.
Proof.
  intros H Hin Hk Hz.
  inversion H as [rs1 es1 v1 c1 Ha Hf Hp|rs1 es1 v1 ko vo c1 Ha Hf Hp|rs1 es1 v1 c1 Ha Hf Hcr Hp
    |rs1 es1 v1 ko vo es2 rs2 c1 Ha Hf He Hw Hn|rs1 es1 v1 es2 rs2 c1 c2 Ha Hf Hcr He Hw Hn Hp|rs1 es1 v1 es2 rs2 c1 Ha Hf Hcr He Hw Hn]; subst.
  - by rewrite Hp.
  - rewrite Hp. by apply del_elem.
  - by rewrite Hp.
  - eapply evicts_stay; [done| |done]. right. by apply del_elem.
  - rewrite Hp. right. by eapply evicts_stay.
  - eapply evicts_stay; [done| |done]. by right.
Qed.
Lemma loads_stay cap budget rs c k v es rs' c' k0 v0 :
  loads cap budget rs c k v es rs' c' → (k0, v0) ∈ c →
  weight P k0 v0 = 0%N ∨ pinned P k0 v0 = true → (k0, v0) ∈ c'.
Proof.
  intros H Hin Hz.
  inversion H as [rs1 es1 v1 c1 Ha Hp|rs1 es1 v1 c1 Ha Hzz Hp|rs1 es1 v1 es2 rs2 c1 Ha Hzz He Hw Hn]; subst.
  - by rewrite Hp.
  - rewrite Hp. by right.
  - eapply evicts_stay; [done| |done]. by right.
Qed.
Lemma upd_other k f c k0 v0 : (k0, v0) ∈ c → keqb P k k0 = false → (k0, v0) ∈ Spec.upd k f c.
Proof. intros H1 H2. apply upd_elem. exists v0. split; [done|]. by right. Qed.
Lemma does_stay cap budget c m o c' k0 v0 :
  does cap budget c m o c' → (k0, v0) ∈ c → spares m k0 v0 →
  weight P k0 v0 = 0%N ∨ pinned P k0 v0 = true → (k0, v0) ∈ c'.
Proof.
  intros Hd Hin Hsp Hz.
  assert (∀ rs k g, guards cap budget c rs k g o c' → (k0, v0) ∈ c') as Hg.
  { intros rs k [v wl| |]; simpl.
    - intros (kp & es & rs' & Hkp & Hl & _). by eapply loads_stay.
    - intros [Hp _]. by rewrite Hp.
    - intros [Hp _]. by rewrite Hp. }
  destruct m as [kq|kq|kq|kq f|kq f|kq|rs kq v soft wl|rs kq v wl|f| | | |rs kq w|rs kq w f|rs kq g|rs kq f g]; simpl in Hd, Hsp; try done.
  1-3: destruct Hd as [Hp _]; by rewrite Hp.
  1-2: destruct Hd as [Hp _]; rewrite Hp; by apply upd_other.
  - destruct Hd as [Hp _]. rewrite Hp. by apply del_elem.
  - destruct Hd as (es & rs' & b & Hi & _). by eapply inserts_stay.
  - destruct Hd as (es & rs' & Hi & _). by eapply inserts_stay.
  - destruct Hd as [Hp _]. rewrite Hp. apply elem_of_list_In, filter_In. split; [by apply elem_of_list_In|done].
  - destruct Hd as [Hp _]. by rewrite Hp.
  - destruct (value_of kq c) as [v1|], w as [v|].
    1,2,4: destruct Hd as [Hp _]; by rewrite Hp.
    destruct Hd as (kp & es & rs' & Hkp & Hl & _). by eapply loads_stay.
  - destruct (value_of kq c) as [v1|], w as [v|].
    1,2: destruct Hd as [Hp _]; rewrite Hp; by apply upd_other.
    2: destruct Hd as [Hp _]; by rewrite Hp.
    destruct Hd as (kp & es & rs' & c1 & Hkp & Hl & Hp & _). rewrite Hp. apply upd_other; [|done]. by eapply loads_stay.
  - destruct (value_of kq c) as [v1|].
    + destruct Hd as [Hp _]; by rewrite Hp.
    + eauto.
  - destruct (value_of kq c) as [v1|].
    + destruct Hd as [Hp _]; rewrite Hp; by apply upd_other.
    + eauto.
Qed.

(* ---- refused and fitting values ---- *)
Lemma inserts_refused cap budget b rs c k v es rs' c' o :
  inserts cap budget b rs c k v es rs' c' o → refused budget rs k v →
  c' ≡ₚ del k c ∧ o = (if b then None else Some (k, stored budget rs k v)).
Proof.
  intros H Hr.
  inversion H as [rs1 es1 v1 c1 Ha Hf Hp|rs1 es1 v1 ko vo c1 Ha Hf Hp|rs1 es1 v1 c1 Ha Hf Hcr Hp
    |rs1 es1 v1 ko vo es2 rs2 c1 Ha Hf He Hw Hn|rs1 es1 v1 es2 rs2 c1 c2 Ha Hf Hcr He Hw Hn Hp|rs1 es1 v1 es2 rs2 c1 Ha Hf Hcr He Hw Hn]; subst;
    pose proof (proj2 (admission_refused _ _ _ _ _ _ _ _ Ha) Hr) as E; try done;
    rewrite (admission_stored _ _ _ _ _ _ _ _ Ha); split; try done.
  by rewrite del_none.
Qed.
Lemma inserts_fits cap budget b rs c k v es rs' c' o :
  inserts cap budget b rs c k v es rs' c' o → ¬ refused budget rs k v →
  (b = true ∨ has k c = true) →
  (wsum (del k c) + weight P k (stored budget rs k v) ≤ cap)%N →
  c' ≡ₚ (k, stored budget rs k v) :: del k c ∧ o = None ∧
  es = (if (budget <? weight P k v)%N && negb (pinned P k v) then [EvBefore k v (stored budget rs k v)] else []) ++
       match find_key k c with Some (ko, vo) => [EvEvict ko vo] | None => [] end.
Proof.
  intros H Hr Hb Hfit.
  assert (∀ rs1 es1 v1, admission budget rs k v = (rs1, es1, v1, false) →
     es1 = (if (budget <? weight P k v)%N && negb (pinned P k v) then [EvBefore k v (stored budget rs k v)] else [])) as Hes.
  { intros rs1 es1 v1. unfold admission, stored. destruct (_ && _); [|by intros [= <- <- <-]]. destruct (before_evict P rs k v). by intros [= <- <- <-]. }
  inversion H as [rs1 es1 v1 c1 Ha Hf Hp|rs1 es1 v1 ko vo c1 Ha Hf Hp|rs1 es1 v1 c1 Ha Hf Hcr Hp
    |rs1 es1 v1 ko vo es2 rs2 c1 Ha Hf He Hw Hn|rs1 es1 v1 es2 rs2 c1 c2 Ha Hf Hcr He Hw Hn Hp|rs1 es1 v1 es2 rs2 c1 Ha Hf Hcr He Hw Hn]; subst;
    try (destruct Hr; by eapply admission_refused);
    pose proof (admission_stored _ _ _ _ _ _ _ _ Ha) as E; rewrite Hf; rewrite <-E in *.
  - destruct Hb as [|Hb]; [done|]. unfold has in Hb. by rewrite Hf in Hb.
  - rewrite wsum_cons in Hn. rewrite (Hn ltac:(lia)) in *. apply evicts_nil in He as [He ->].
    split_and!; [done|done|]. by rewrite (Hes _ _ _ Ha).
  - rewrite del_none in * by done. rewrite (Hn ltac:(lia)) in *. apply evicts_nil in He as [He ->].
    split_and!; [by rewrite Hp, He|done|]. by rewrite (Hes _ _ _ Ha).
  - rewrite del_none in * by done. rewrite (Hn ltac:(lia)) in *. apply evicts_nil in He as [He ->].
    split_and!; [done|done|]. by rewrite (Hes _ _ _ Ha).
Qed.
Lemma loads_fits cap budget rs c k v es rs' c' :
  loads cap budget rs c k v es rs' c' → ¬ refused budget rs k v →
  (wsum c + weight P k (stored budget rs k v) ≤ cap)%N →
  c' ≡ₚ (k, stored budget rs k v) :: c ∧
  es = (if (budget <? weight P k v)%N && negb (pinned P k v) then [EvBefore k v (stored budget rs k v)] else []).
Proof.
  intros H Hr Hfit.
  assert (∀ rs1 es1 v1, admission budget rs k v = (rs1, es1, v1, false) →
     es1 = (if (budget <? weight P k v)%N && negb (pinned P k v) then [EvBefore k v (stored budget rs k v)] else [])) as Hes.
  { intros rs1 es1 v1. unfold admission, stored. destruct (_ && _); [|by intros [= <- <- <-]]. destruct (before_evict P rs k v). by intros [= <- <- <-]. }
  inversion H as [rs1 es1 v1 c1 Ha Hp|rs1 es1 v1 c1 Ha Hzz Hp|rs1 es1 v1 es2 rs2 c1 Ha Hzz He Hw Hn]; subst;
    try (destruct Hr; by eapply admission_refused);
    pose proof (admission_stored _ _ _ _ _ _ _ _ Ha) as E; rewrite <-E in *.
  - split; [done|]. by eapply Hes.
  - rewrite (Hn ltac:(lia)) in *. apply evicts_nil in He as [He ->]. split; [done|]. rewrite app_nil_r. by eapply Hes.
Qed.
Lemma loads_refused cap budget rs c k v es rs' c' :
  loads cap budget rs c k v es rs' c' → refused budget rs k v → c' ≡ₚ c.
Proof.
  intros H Hr.
  inversion H as [rs1 es1 v1 c1 Ha Hp|rs1 es1 v1 c1 Ha Hzz Hp|rs1 es1 v1 es2 rs2 c1 Ha Hzz He Hw Hn]; subst;
    pose proof (proj2 (admission_refused _ _ _ _ _ _ _ _ Ha) Hr) as E; done.
Qed.
(* the fate of an item while the cache makes room *)
Lemma evicts_fate rs c es rs' c' k v : evicts rs c es rs' c' → (k, v) ∈ c →
  (k, v) ∈ c' ∨ ∃ v', (∃ rs1 rs2, before_evict P rs1 k v = (rs2, v')) ∧
     if (weight P k v' =? 0)%N then (k, v') ∈ c' else EvEvict k v' ∈ es.
Proof.
  induction 1 as [rs c c' H|rs c k1 v1 rest rs1 w es rs' c' H Hp Hw Hb Hw' He IH|rs c k1 v1 rest rs1 w es rs' c' H Hp Hw Hb Hw' He IH]; intros Hin.
  - left. by rewrite <-H.
  - rewrite H in Hin. apply elem_of_cons in Hin as [[= -> ->]|Hin].
    + right. exists w. split; [eauto|]. rewrite Hw'. simpl. eapply evicts_stay; [done|by left|by left].
    + destruct (IH ltac:(by right)) as [?|(v' & ? & ?)]; [by left|]. right. exists v'. split; [done|].
      destruct (_ =? _)%N; [done|]. by right.
  - rewrite H in Hin. apply elem_of_cons in Hin as [[= -> ->]|Hin].
    + right. exists w. split; [eauto|]. destruct (N.eqb_spec (weight P k1 w) 0); [done|]. right. by left.
    + destruct (IH Hin) as [?|(v' & ? & ?)]; [by left|]. right. exists v'. split; [done|].
      destruct (_ =? _)%N; [done|]. by do 2 right.
Qed.
Lemma inserts_fate cap budget rs c k v es rs' c' o :
  inserts cap budget true rs c k v es rs' c' o → ¬ refused budget rs k v →
  let v1 := stored budget rs k v in
  (k, v1) ∈ c' ∨ ∃ v', (∃ rs1 rs2, before_evict P rs1 k v1 = (rs2, v')) ∧
     if (weight P k v' =? 0)%N then (k, v') ∈ c' else EvEvict k v' ∈ es.
Proof.
  intros H Hr.
  inversion H as [rs1 es1 v1 c1 Ha Hf Hp|rs1 es1 v1 ko vo c1 Ha Hf Hp|rs1 es1 v1 c1 Ha Hf Hcr Hp
    |rs1 es1 v1 ko vo es2 rs2 c1 Ha Hf He Hw Hn|rs1 es1 v1 es2 rs2 c1 c2 Ha Hf Hcr He Hw Hn Hp|rs1 es1 v1 es2 rs2 c1 Ha Hf Hcr He Hw Hn]; subst;
    try (destruct Hr; by eapply admission_refused); simpl;
    pose proof (admission_stored _ _ _ _ _ _ _ _ Ha) as E; rewrite <-E in *.
  - destruct (evicts_fate _ _ _ _ _ k v1 He ltac:(by left)) as [?|(v' & ? & Hc)]; [by left|]. right. exists v'. split; [done|].
    destruct (_ =? _)%N; [done|]. rewrite elem_of_app. right. by right.
  - left. rewrite Hp. by left.
  - destruct (evicts_fate _ _ _ _ _ k v1 He ltac:(by left)) as [?|(v' & ? & Hc)]; [by left|]. right. exists v'. split; [done|].
    destruct (_ =? _)%N; [done|]. rewrite elem_of_app. by right.
Qed.

(* ---- lengths ---- *)
Lemma loads_length cap budget rs c k v es rs' c' :
  loads cap budget rs c k v es rs' c' → length c' ≤ S (length c).
Proof.
  inversion 1 as [rs1 es1 v1 c1 Ha Hp|rs1 es1 v1 c1 Ha Hzz Hp|rs1 es1 v1 es2 rs2 c1 Ha Hzz He Hw Hn]; subst.
  - rewrite Hp. lia.
  - rewrite Hp. done.
  - by apply evicts_length in He.
Qed.
Lemma wsum_bound W c : (∀ k v, (weight P k v ≤ W)%N) → (wsum c ≤ N.of_nat (length c) * W)%N.
Proof.
  intros HW. induction c as [|[k v] c IH]; [simpl; unfold wsum; simpl; lia|]. rewrite wsum_cons. specialize (HW k v). cbn [length]. lia.
Qed.
Lemma upd_length k f c : length (Spec.upd k f c) = length c.
Proof. apply map_length. Qed.
Lemma length_used s : (N.of_nat (length (sh_iter s)) ≤ used s)%N.
Proof.
  rewrite sh_iter_kvs, length_esum. unfold used. induction (its_of s) as [|[[[k v [|] x]|p|h]|] l IH]; unfold esum in *; simpl in *; unfold one in *; lia.
Qed.
Lemma history_used budget ghosts cap h os s : history budget ghosts cap h os s → (used s ≤ N.of_nat (length h))%N.
Proof.
  intros H. eapply (history_ind LW budget ghosts cap (λ h os s, (used s ≤ N.of_nat (length h))%N)); [..|exact H].
  - unfold used, its_of, esum. simpl. lia.
  - intros h0 os0 s0 m o s' H0 HI Hc IH He Hs Hd. rewrite app_length. simpl. pose proof (st_used _ _ _ _ Hs). lia.
Qed.

(* ---- failures ---- *)
Lemma run_fail s h e : run s h = Fail e → ∃ h1 m h2 s1 os1, h = h1 ++ m :: h2 ∧ run s h1 = Ok (s1, os1) ∧ exec s1 m = Fail e.
Proof.
  revert s. induction h as [|m h IH]; intros s Hr; simpl in Hr; [done|].
  destruct (exec s m) as [[s1 o]|e'] eqn:He; simpl in Hr.
  - destruct (run s1 h) as [[s2 os2]|e'] eqn:Hr2; simpl in Hr; [done|]. injection Hr as ->.
    destruct (IH _ Hr2) as (h1 & m' & h2 & s1' & os1 & -> & H1 & H2). exists (m :: h1), m', h2, s1', (o :: os1).
    split; [done|]. simpl. rewrite He. simpl. by rewrite H1.
  - injection Hr as ->. by exists [], m, h, s, [].
Qed.
Lemma history_fail budget ghosts cap h e : run (sh_new budget ghosts cap) h = Fail e →
  ∃ h1 m h2 os s, h = h1 ++ m :: h2 ∧ history budget ghosts cap h1 os s ∧
    match e with
    | SlabFull => (two32 ≤ used s + 2)%N
    | WeightOvf => may_overflow cap budget (sh_iter s) m
    | _ => False
    end.
Proof.
  intros H. apply run_fail in H as (h1 & m & h2 & s1 & os1 & -> & H1 & He).
  exists h1, m, h2, os1, s1. split; [done|]. split; [done|].
  destruct (history_inv LW _ _ _ _ _ _ H1) as [HI Hc]. pose proof (exec_spec LW s1 m HI) as Hx. rewrite He in Hx. simpl in Hx.
  unfold cfg in Hc. injection Hc as Hc1 Hc2 _. unfold fails in Hx. by rewrite Hc1, Hc2 in Hx.
Qed.
Lemma overflow_light W cap budget c m : (∀ k v, (weight P k v ≤ W)%N) → may_overflow cap budget c m →
  (two64 ≤ N.of_nat (S (length c)) * W)%N.
Proof.
  intros HW.
  assert (∀ rs k v, in_overflow budget c rs k v → (two64 ≤ N.of_nat (S (length c)) * W)%N) as Hin.
  { intros rs k v (rs1 & es & v1 & _ & H). pose proof (wsum_bound W c HW). pose proof (HW k v1). lia. }
  assert (∀ k f c1, (two64 ≤ wsum (Spec.upd k f c1))%N → length c1 ≤ S (length c) → (two64 ≤ N.of_nat (S (length c)) * W)%N) as Hu.
  { intros k f c1 H Hl. pose proof (wsum_bound W (Spec.upd k f c1) HW). rewrite upd_length in *.
    etrans; [exact H|]. etrans; [done|]. apply N.mul_le_mono_r. lia. }
  destruct m as [kq|kq|kq|kq f|kq f|kq|rs kq v soft wl|rs kq v wl|f| | | |rs kq w|rs kq w f|rs kq g|rs kq f g]; simpl; try done.
  - intros H. eapply Hu; [done|lia].
  - intros H. eapply Hu; [done|lia].
  - apply Hin.
  - apply Hin.
  - destruct w as [v|]; [|done]. intros (kp & _ & H). eauto.
  - intros [H|(v & kp & _ & _ & [H|(es & rs' & c1 & Hl & H)])].
    + eapply Hu; [done|lia].
    + eauto.
    + eapply Hu; [done|]. by eapply loads_length.
  - destruct g as [v wl| |]; [|done..]. intros (kp & _ & H). eauto.
  - intros [H|(v & wl & kp & _ & _ & H)]; [|eauto]. eapply Hu; [done|lia].
Qed.
Lemma overflow_unpinned cap budget c m : (∀ k v, pinned P k v = false) → no_growth m → (wsum c ≤ cap)%N → (cap + budget < two64)%N →
  ¬ may_overflow cap budget c m.
Proof.
  intros Hpin Hg Hc Hcb.
  assert (∀ rs k v, ¬ in_overflow budget c rs k v) as Hin.
  { intros rs k v (rs1 & es & v1 & Ha & H). destruct (admission_light _ _ _ _ _ _ _ Ha) as [Hl|Hl]; [lia|]. by rewrite Hpin in Hl. }
  destruct m as [kq|kq|kq|kq f|kq f|kq|rs kq v soft wl|rs kq v wl|f| | | |rs kq w|rs kq w f|rs kq g|rs kq f g]; simpl; unfold no_growth in Hg; simpl in Hg; intros H; try done.
  - pose proof (wsum_upd kq f c Hg). lia.
  - pose proof (wsum_upd kq f c Hg). lia.
  - by eapply Hin.
  - by eapply Hin.
  - destruct w as [v|]; [|done]. destruct H as (kp & _ & H). by eapply Hin.
  - destruct H as [H|(v & kp & _ & _ & [H|(es & rs' & c1 & Hl & H)])].
    + pose proof (wsum_upd kq f c Hg). lia.
    + by eapply Hin.
    + pose proof (wsum_upd kq f c1 Hg). apply loads_uwsum in Hl; rewrite uwsum_none in * by done; lia.
  - destruct g as [v wl| |]; [|done..]. destruct H as (kp & _ & H). by eapply Hin.
  - destruct H as [H|(v & wl & kp & _ & _ & H)]; [|by eapply Hin]. pose proof (wsum_upd kq f c Hg). lia.
Qed.
Lemma no_growth_unpinned (h : list cmd) : (∀ k v, pinned P k v = false) → Forall no_growth h → Forall no_growth_unpin h.
Proof.
  intros Hp. intros HF. eapply Forall_impl; [exact HF|]. intros m. unfold no_growth, no_growth_unpin. destruct (mutation m) as [[k f]|]; [|done].
  intros H k' v Hk. split; [auto|]. by rewrite Hp.
Qed.
Lemma history_wsum budget ghosts cap h os s : (budget ≤ cap)%N → (∀ k v, pinned P k v = false) → Forall no_growth h →
  history budget ghosts cap h os s → (wsum (sh_iter s) ≤ cap)%N.
Proof.
  intros Hb Hp Hg H. rewrite <-uwsum_none by done. eapply (history_uwsum LW); [exact Hb| |exact H]. by apply no_growth_unpinned.
Qed.

(* ---- memory ---- *)
Definition is_ph (e : entry P) : N := match e with Placeholder _ => 1 | _ => 0 end.
Definition phs s : N := esum is_ph (its_of s).
Lemma phs_le (l l' : list (option (entry P))) (t0 : nat) (a : bool) :
  (∀ t p, l' !! t = Some (Some (Placeholder p)) → (∃ p', l !! t = Some (Some (Placeholder p'))) ∨ (t = t0 ∧ a = true)) →
  (esum is_ph l' ≤ esum is_ph l + if a then 1 else 0)%N.
Proof.
  revert l t0 a. induction l' as [|o l' IH]; intros l t0 a H; [unfold esum; simpl; lia|].
  assert (∀ x : list (option (entry P)), esum is_ph (o :: x) = ((match o with Some (Placeholder _) => 1 | _ => 0 end) + esum is_ph x)%N) as Hc.
  { intros x. unfold esum. simpl. by destruct o as [[| |]|]. }
  assert (esum is_ph (tail l) + (match l with Some (Placeholder _) :: _ => 1 | _ => 0 end) = esum is_ph l)%N as Ht.
  { destruct l as [|[[| |]|] l]; unfold esum; simpl; lia. }
  assert (∀ t p, l' !! t = Some (Some (Placeholder p)) → (∃ p', tail l !! t = Some (Some (Placeholder p'))) ∨ (S t = t0 ∧ a = true)) as H'.
  { intros t p Hp. destruct (H (S t) p Hp) as [[p' Hp']|?]; [|by right]. left. exists p'. by destruct l. }
  rewrite Hc.
  assert ((∃ p, o = Some (Placeholder p)) ∨ ¬ ∃ p, o = Some (Placeholder p)) as [[p ->]|Hno].
  { destruct o as [[| |]|]; [right; naive_solver|left; eauto|right; naive_solver..]. }
  - destruct (H 0 p eq_refl) as [[p' Hp']|[<- ->]].
    + destruct l as [|o' l]; [done|]. simpl in Hp'. injection Hp' as ->. simpl in *.
      specialize (IH l (pred t0) a). cut (esum is_ph l' ≤ esum is_ph l + if a then 1 else 0)%N; [lia|]. apply IH.
      intros t q Hq. destruct (H' t q Hq) as [?|[<- ->]]; [by left|by right].
    + specialize (IH (tail l) 0 false). cut (esum is_ph l' ≤ esum is_ph (tail l) + 0)%N; [|apply IH].
      * destruct l as [|[[| |]|] l]; simpl in *; lia.
      * intros t q Hq. destruct (H' t q Hq) as [?|[? _]]; [by left|done].
  - assert ((match o with Some (Placeholder _) => 1 | _ => 0 end) = 0)%N as ->.
    { destruct o as [[| |]|]; try done. destruct Hno; eauto. }
    specialize (IH (tail l) (pred t0) a). cut (esum is_ph l' ≤ esum is_ph (tail l) + if a then 1 else 0)%N; [lia|]. apply IH.
    intros t q Hq. destruct (H' t q Hq) as [?|[<- ->]]; [by left|by right].
Qed.
Lemma phs_step s s' a z : ph_grow s s' a z → (phs s' ≤ phs s + if a then 1 else 0)%N.
Proof.
  intros [t0 H]. unfold phs. apply (phs_le _ _ t0). intros t p Hp.
  destruct (H t p (bool_decide (mapped s' t))) as [(b' & Hq & _)|(-> & -> & _)].
  - unfold ph_at. by rewrite Hp.
  - left. exists p. unfold ph_at in Hq. destruct (its_of s !! t) as [[[]|]|]; naive_solver.
  - by right.
Qed.
Lemma used_phs s : Inv s → used s = (N.of_nat (length (sh_iter s)) + sh_nnr s + phs s)%N.
Proof.
  intros (rs & fl & HI). rewrite (acc_g _ _ (i_acc _ _ _ HI)). rewrite sh_iter_kvs, length_esum. unfold used, phs.
  clear. induction (its_of s) as [|o l IH]; [done|].
  unfold esum in *; simpl. rewrite IH.
  destruct o as [[[k v [|] x]|p|h]|]; simpl; unfold one; lia.
Qed.
Lemma length_wsum c : (∀ k v, (1 ≤ weight P k v)%N) → (N.of_nat (length c) ≤ wsum c)%N.
Proof. intros H. induction c as [|[k v] c IH]; [unfold wsum; simpl; lia|]. rewrite wsum_cons. specialize (H k v). cbn [length]. lia. Qed.
Lemma history_phs budget ghosts cap h os s : history budget ghosts cap h os s → (phs s ≤ abandoned h)%N.
Proof.
  intros H. eapply (history_ind LW budget ghosts cap (λ h os s, (phs s ≤ abandoned h)%N)); [..|exact H].
  - unfold phs, its_of, esum. simpl. lia.
  - intros h0 os0 s0 m o s' H0 HI Hc IH He Hs Hd. pose proof (phs_step _ _ _ _ (st_ph _ _ _ _ Hs)) as Hp.
    unfold abandoned in *. rewrite List.filter_app, app_length. simpl. destruct (abandons m); simpl in *; lia.
Qed.
Lemma history_used_bound budget ghosts cap h os s : (budget ≤ cap)%N → (∀ k v, pinned P k v = false) → (∀ k v, (1 ≤ weight P k v)%N) →
  Forall no_growth h → history budget ghosts cap h os s → (used s ≤ cap + ghosts + abandoned h)%N.
Proof.
  intros Hb Hp Hw Hg H. destruct (history_inv LW _ _ _ _ _ _ H) as [HI Hc].
  pose proof (history_wsum _ _ _ _ _ _ Hb Hp Hg H). pose proof (length_wsum (sh_iter s) Hw).
  pose proof (history_phs _ _ _ _ _ _ H). rewrite (used_phs s HI).
  destruct HI as (rs & fl & HI). pose proof (i_ghost _ _ _ HI). unfold cfg in Hc. injection Hc as _ _ Hc3. lia.
Qed.
Lemma history_slots_guarded budget ghosts cap h os s : (budget ≤ cap)%N → (∀ k v, pinned P k v = false) → (∀ k v, (1 ≤ weight P k v)%N) →
  Forall no_growth h → history budget ghosts cap h os s → (slots s ≤ cap + ghosts + abandoned h + 1)%N.
Proof.
  intros Hb Hp Hw Hg H. revert Hg. eapply (history_ind LW budget ghosts cap (λ h os s, Forall no_growth h → (slots s ≤ cap + ghosts + abandoned h + 1)%N)); [..|exact H].
  - intros _. unfold slots, its_of. simpl. lia.
  - intros h0 os0 s0 m o s' H0 HI Hc IH He Hs Hd Hg. apply Forall_app in Hg as [Hg1 _].
    pose proof (history_used_bound _ _ _ _ _ _ Hb Hp Hw Hg1 H0). specialize (IH Hg1). pose proof (st_slots _ _ _ _ Hs).
    assert (abandoned h0 ≤ abandoned (h0 ++ [m]))%N; [|lia]. unfold abandoned. rewrite List.filter_app, app_length. lia.
Qed.
Lemma history_slots budget ghosts cap h os s : (budget ≤ cap)%N → (∀ k v, pinned P k v = false) → (∀ k v, (1 ≤ weight P k v)%N) →
  Forall no_growth h → Forall (λ m, guarded m = false) h → history budget ghosts cap h os s → (slots s ≤ cap + ghosts)%N.
Proof.
  intros Hb Hp Hw Hg Hgu H. revert Hg Hgu.
  eapply (history_ind LW budget ghosts cap (λ h os s, Forall no_growth h → Forall (λ m, guarded m = false) h → (slots s ≤ cap + ghosts)%N)); [..|exact H].
  - intros _ _. unfold slots, its_of. simpl. lia.
  - intros h0 os0 s0 m o s' H0 HI Hc IH He Hs Hd Hg Hgu.
    assert (history budget ghosts cap (h0 ++ [m]) (os0 ++ [o]) s') as H1.
    { apply run_snoc. by exists s0, os0, o. }
    pose proof (history_used_bound _ _ _ _ _ _ Hb Hp Hw Hg H1) as Hus.
    assert (abandoned (h0 ++ [m]) = 0%N) as Hab.
    { unfold abandoned. clear -Hgu. induction Hgu as [|m' l Hm' _ IH]; [done|]. simpl. by destruct m'. }
    apply Forall_app in Hgu as [Hgu1 Hgu2]. apply Forall_cons in Hgu2 as [Hgu2 _]. apply Forall_app in Hg as [Hg1 _].
    pose proof (st_slots_ok _ _ _ _ Hs Hgu2) as Hsl. unfold slots_ok in Hsl. specialize (IH Hg1 Hgu1). lia.
Qed.
(* no call left a pending entry behind: there is none *)
Lemma history_nopending budget ghosts cap h os s : Forall (λ m, strands m = false) h → history budget ghosts cap h os s → ∀ k, ¬ pending s k.
Proof.
  intros Hg H. cut (∀ t q, ph_at s t ≠ Some (q, true)). { intros Hn k (t & q & Hq & _). by eapply Hn. }
  revert Hg. eapply (history_ind LW budget ghosts cap (λ h os s, Forall (λ m, strands m = false) h → ∀ t q, ph_at s t ≠ Some (q, true))); [..|exact H].
  - done.
  - intros h0 os0 s0 m o s' H0 HI Hc IH He Hs Hd Hg t q Hq. apply Forall_app in Hg as [Hg1 Hg2]. apply Forall_cons in Hg2 as [Hg2 _].
    destruct (st_ph _ _ _ _ Hs) as [t0 Hst]. destruct (Hst _ _ _ Hq) as [(b' & Hb' & Hb2)|(_ & _ & Hz)].
    + rewrite (Hb2 eq_refl) in Hb'. by eapply IH.
    + rewrite Hz in Hg2; done.
Qed.

(* ---- exact weights ---- *)
Lemma wsum_upd_exact k f c ko vo : ukeys c → find_key k c = Some (ko, vo) →
  (wsum (Spec.upd k f c) + weight P ko vo = wsum c + weight P ko (f vo))%N.
Proof.
  intros Hu Hf. apply find_key_Some in Hf as [Hin Hk]. apply elem_of_Permutation in Hin as [c0 Hp].
  rewrite (upd_perm k f _ _ Hp), Hp. rewrite (upd_head LW); [|by apply (ukeys_perm LW _ _ Hp)|done]. simpl fst. simpl snd.
  rewrite !wsum_cons. lia.
Qed.
Lemma value_in c k v : ukeys c → (value_of k c = Some v ↔ ∃ k', (k', v) ∈ c ∧ keqb P k k' = true).
Proof.
  intros Hu. unfold value_of. split.
  - destruct (find_key k c) as [[ko vo]|] eqn:Hf; simpl; [|done]. intros [= ->]. apply find_key_Some in Hf as [? ?]. eauto.
  - intros (k' & Hin & Hk). by rewrite (find_key_in LW k c (k', v)).
Qed.
End seq4.
