(* More consequences of the API specification: where values come from, what hooks report, how
   calls fail. *)
From Verif Require Export SeqProofs.

Section seq2.
Context {P : Params} (LW : Lawful P).
Notation K := (K P). Notation V := (V P). Notation RS := (RS P).
Notation shard := (shard P). Notation out := (out P). Notation cmd := (cmd P). Notation contents := (contents P).
Implicit Types (s : shard) (k : K) (v : V) (c : contents) (rs : RS) (es : list (event P)).

(* ---- origin of the cached items ---- *)
Lemma turned_refl k v : turned (P:=P) k v v. Proof. apply rtc_refl. Qed.
Lemma turned_once k v v' rs rs' : before_evict P rs k v = (rs', v') → turned k v v'.
Proof. intros H. apply rtc_once. eauto. Qed.
Lemma turned_trans k v v' v'' : turned (P:=P) k v v' → turned k v' v'' → turned k v v''.
Proof. apply rtc_transitive. Qed.
Lemma evicts_turned rs c es rs' c' k' v' : evicts rs c es rs' c' → (k', v') ∈ c' → ∃ v, (k', v) ∈ c ∧ turned k' v v'.
Proof.
  intros He Hin. destruct (evicts_origin _ _ _ _ _ _ _ He Hin) as [H|(v & r1 & r2 & H & _ & Hb)].
  - exists v'. split; [done|apply turned_refl].
  - exists v. split; [done|by eapply turned_once].
Qed.
Lemma admission_turned budget rs k v rs1 es v1 b : admission budget rs k v = (rs1, es, v1, b) → turned k v v1.
Proof.
  intros H. destruct (admission_hooks _ _ _ _ _ _ _ _ H) as [(_ & -> & _)|(_ & Hb & _)].
  - apply turned_refl.
  - by eapply turned_once.
Qed.
Lemma inserts_origin cap budget b rs c k v es rs' c' o k' v' :
  inserts cap budget b rs c k v es rs' c' o → (k', v') ∈ c' →
  (k' = k ∧ turned k v v' ∧ o = None) ∨ (keqb P k k' = false ∧ ∃ v0, (k', v0) ∈ c ∧ turned k' v0 v').
Proof.
  intros H Hin.
  assert (∀ c2, find_key k c2 = None → (k', v') ∈ c2 → keqb P k k' = false) as Hnone.
  { intros c2 Hf Hi. by apply (proj1 (find_key_None k c2) Hf (k', v')). }
  inversion H as [rs1 es1 v1 c1 Ha Hf Hp|rs1 es1 v1 ko vo c1 Ha Hf Hp|rs1 es1 v1 c1 Ha Hf Hcr Hp
    |rs1 es1 v1 ko vo es2 rs2 c1 Ha Hf He Hw Hn|rs1 es1 v1 es2 rs2 c1 c2 Ha Hf Hcr He Hw Hn Hp|rs1 es1 v1 es2 rs2 c1 Ha Hf Hcr He Hw Hn]; subst.
  - rewrite Hp in Hin. right. split; [eauto|]. exists v'. split; [done|apply turned_refl].
  - rewrite Hp in Hin. apply del_elem in Hin as [Hin Hk]. right. split; [done|]. exists v'. split; [done|apply turned_refl].
  - rewrite Hp in Hin. right. split; [eauto|]. exists v'. split; [done|apply turned_refl].
  - destruct (evicts_turned _ _ _ _ _ _ _ He Hin) as (v0 & [[= -> ->]|Hd]%elem_of_cons & Ht).
    + left. split_and!; [done| |done]. eapply turned_trans; [|done]. by eapply admission_turned.
    + apply del_elem in Hd as [Hd Hk]. right. split; [done|]. eauto.
  - rewrite Hp in Hin. apply elem_of_cons in Hin as [[= -> ->]|Hin].
    + left. split_and!; [done|by eapply admission_turned|done].
    + destruct (evicts_turned _ _ _ _ _ _ _ He Hin) as (v0 & Hd & Ht). right. split; [|eauto].
      by apply (proj1 (find_key_None k c) Hf (k', v0)).
  - destruct (evicts_turned _ _ _ _ _ _ _ He Hin) as (v0 & [[= -> ->]|Hd]%elem_of_cons & Ht).
    + left. split_and!; [done| |done]. eapply turned_trans; [|done]. by eapply admission_turned.
    + right. split; [|eauto]. by apply (proj1 (find_key_None k c) Hf (k', v0)).
Qed.
Lemma loads_origin cap budget rs c k v es rs' c' k' v' :
  loads cap budget rs c k v es rs' c' → (k', v') ∈ c' →
  (k' = k ∧ turned k v v') ∨ ∃ v0, (k', v0) ∈ c ∧ turned k' v0 v'.
Proof.
  intros H Hin.
  inversion H as [rs1 es1 v1 c1 Ha Hp|rs1 es1 v1 c1 Ha Hz Hp|rs1 es1 v1 es2 rs2 c1 Ha Hz He Hw Hn]; subst.
  - rewrite Hp in Hin. right. exists v'. split; [done|apply turned_refl].
  - rewrite Hp in Hin. apply elem_of_cons in Hin as [[= -> ->]|Hin].
    + left. split; [done|by eapply admission_turned].
    + right. exists v'. split; [done|apply turned_refl].
  - destruct (evicts_turned _ _ _ _ _ _ _ He Hin) as (v0 & [[= -> ->]|Hd]%elem_of_cons & Ht).
    + left. split; [done|]. eapply turned_trans; [|done]. by eapply admission_turned.
    + eauto.
Qed.
Lemma upd_elem k f c k' v' : (k', v') ∈ Spec.upd k f c ↔
  ∃ v, (k', v) ∈ c ∧ ((keqb P k k' = true ∧ v' = f v) ∨ (keqb P k k' = false ∧ v' = v)).
Proof.
  unfold Spec.upd. rewrite elem_of_list_In, in_map_iff. split.
  - intros ([k0 v0] & He & Hin%elem_of_list_In). simpl in He. destruct (keqb P k k0) eqn:Hk; injection He as -> <-; eauto.
  - intros (v & Hin%elem_of_list_In & H). exists (k', v). split; [|done]. simpl. destruct H as [[-> ->]|[-> ->]]; done.
Qed.
Lemma value_none k c : value_of k c = None ↔ find_key k c = None.
Proof. unfold value_of. by destruct (find_key k c). Qed.
Lemma find_none k c k' v' : find_key k c = None → (k', v') ∈ c → keqb P k k' = false.
Proof. intros Hf Hin. by apply (proj1 (find_key_None k c) Hf (k', v')). Qed.
Lemma find_some k c k' v' : (k', v') ∈ c → keqb P k k' = true → ∃ ko vo, find_key k c = Some (ko, vo).
Proof.
  intros Hin Hk. destruct (find_key k c) as [[ko vo]|] eqn:Hf; [eauto|].
  rewrite (find_none _ _ _ _ Hf Hin) in Hk. done.
Qed.
Lemma keqb_symf a b : keqb P a b = false → keqb P b a = false.
Proof. intros H. by rewrite (keqb_symb LW). Qed.

(* ---- the last value written ---- *)
Lemma came_from_turned fs k k' v v' : came_from fs k v → keqb P k k' = true → turned k' v v' → came_from fs k v'.
Proof.
  intros H Hk Ht. induction Ht as [|x y z (rs & rs' & Hb) _ IH]; [done|]. apply IH. by eapply cf_hook.
Qed.
Lemma came_from_cong fs k k' v : came_from fs k v → keqb P k k' = true → came_from fs k' v.
Proof.
  intros H. revert k'. induction H; intros k2 Hk; rewrite (keqb_cong LW _ _ _ Hk) in *; econstructor; eauto.
Qed.
Definition sourced (fs : list (effect P)) c : Prop := ∀ k v, (k, v) ∈ c → came_from fs k v.
Lemma sourced_perm fs c c' : c' ≡ₚ c → sourced fs c → sourced fs c'.
Proof. intros Hp H k v. rewrite Hp. apply H. Qed.
Lemma sourced_inserts cap budget b rs c k v es rs' c' o fs :
  inserts cap budget b rs c k v es rs' c' o → sourced fs c →
  sourced (fs ++ match o with None => [Wrote k v] | Some _ => [] end) c'.
Proof.
  intros Hi Hs k' v' Hin. destruct (inserts_origin _ _ _ _ _ _ _ _ _ _ _ _ _ Hi Hin) as [(-> & Ht & ->)|(Hk & v0 & H0 & Ht)].
  - eapply came_from_turned; [|apply (keqb_refl _ LW)|done]. apply cf_wrote, (keqb_refl _ LW).
  - eapply came_from_turned; [|apply (keqb_refl _ LW)|done]. destruct o; [rewrite app_nil_r; auto|].
    apply cf_wrote_other; [auto|by apply keqb_symf].
Qed.
Lemma sourced_loads cap budget rs c k kp v es rs' c' fs :
  loads cap budget rs c kp v es rs' c' → keqb P k kp = true → find_key k c = None → sourced fs c →
  sourced (fs ++ [Wrote k v]) c'.
Proof.
  intros Hi Hkp Hf Hs k' v' Hin. destruct (loads_origin _ _ _ _ _ _ _ _ _ _ _ Hi Hin) as [(-> & Ht)|(v0 & H0 & Ht)].
  - eapply came_from_turned; [|apply (keqb_refl _ LW)|done]. apply cf_wrote. by apply (keqb_sym _ LW).
  - eapply came_from_turned; [|apply (keqb_refl _ LW)|done].
    apply cf_wrote_other; [auto|]. apply keqb_symf. by eapply find_none.
Qed.
Lemma sourced_upd k f c fs (b : bool) :
  (b = false → find_key k c = None) → sourced fs c →
  sourced (fs ++ (if b then [Mutated k f] else [])) (Spec.upd k f c).
Proof.
  intros Hb Hs k' v' Hin. apply upd_elem in Hin as (v & Hin & [[Hk ->]|[Hk ->]]).
  - destruct b; [|by rewrite (find_none _ _ _ _ (Hb eq_refl) Hin) in Hk].
    apply cf_mutated; [auto|by apply (keqb_sym _ LW)].
  - destruct b; [|rewrite app_nil_r; auto]. apply cf_mutated_other; [auto|by apply keqb_symf].
Qed.
Lemma sourced_guards cap budget c rs k g o c' fs :
  guards cap budget c rs k g o c' → find_key k c = None → sourced fs c →
  sourced (fs ++ match o_ret o, g with RGuard, GInsert v _ => [Wrote k v] | _, _ => [] end) c'.
Proof.
  destruct g as [v wl| |]; simpl.
  - intros (kp & es & rs' & Hk & Hl & ->) Hf Hs. simpl. by eapply sourced_loads.
  - intros [Hp ->] _ Hs. simpl. rewrite app_nil_r. by eapply sourced_perm.
  - intros [Hp ->] _ Hs. simpl. rewrite app_nil_r. by eapply sourced_perm.
Qed.
Lemma sourced_does cap budget c m o c' fs :
  does cap budget c m o c' → sourced fs c → sourced (fs ++ effects m o) c'.
Proof.
  intros Hd Hs.
  destruct m as [k|k|k|k f|k f|k|rs k v soft wl|rs k v wl|f| | | |rs k w|rs k w f|rs k g|rs k f g]; simpl in Hd |- *.
  - destruct Hd as [Hp ->]. rewrite app_nil_r. by eapply sourced_perm.
  - destruct Hd as [Hp ->]. rewrite app_nil_r. by eapply sourced_perm.
  - destruct Hd as [Hp ->]. rewrite app_nil_r. by eapply sourced_perm.
  - destruct Hd as [Hp ->]. eapply sourced_perm; [done|]. apply sourced_upd; [|done].
    unfold hit, value_of; simpl. by destruct (find_key k c).
  - destruct Hd as [Hp ->]. eapply sourced_perm; [done|]. apply sourced_upd; [|done].
    unfold hit, value_of; simpl. by destruct (find_key k c).
  - destruct Hd as [Hp ->]. intros k' v'. rewrite Hp. intros [Hin Hk]%del_elem. apply cf_erased_other; [auto|by apply keqb_symf].
  - destruct Hd as (es & rs' & b & Hi & ->). pose proof (sourced_inserts _ _ _ _ _ _ _ _ _ _ _ _ Hi Hs) as H. by destruct b.
  - destruct Hd as (es & rs' & Hi & ->). apply (sourced_inserts _ _ _ _ _ _ _ _ _ _ _ _ Hi Hs).
  - destruct Hd as [Hp ->]. intros k' v'. rewrite Hp. rewrite elem_of_list_In, filter_In. intros [Hin%elem_of_list_In Hk].
    eapply cf_filtered; [by apply Hs|apply (keqb_refl _ LW)|done].
  - destruct Hd as [-> ->]. by intros k' v' ?%elem_of_nil.
  - destruct Hd as [-> _]. by intros k' v' ?%elem_of_nil.
  - destruct Hd as [Hp ->]. rewrite app_nil_r. by eapply sourced_perm.
  - destruct (value_of k c) as [v0|] eqn:Hv, w as [v|].
    + destruct Hd as [Hp ->]. simpl. rewrite app_nil_r. by eapply sourced_perm.
    + destruct Hd as [Hp ->]. simpl. rewrite app_nil_r. by eapply sourced_perm.
    + destruct Hd as (kp & es & rs' & Hk & Hl & ->). simpl. eapply sourced_loads; [done|done|by apply value_none|done].
    + destruct Hd as [Hp ->]. simpl. rewrite app_nil_r. by eapply sourced_perm.
  - destruct (value_of k c) as [v0|] eqn:Hv.
    + destruct Hd as [Hp ->]. eapply sourced_perm; [done|].
      replace (match w with Some v => _ | None => _ end ++ _) with (if true then [Mutated k f] else []) by (by destruct w).
      by apply (sourced_upd k f c fs true).
    + apply value_none in Hv. destruct w as [v|].
      * destruct Hd as (kp & es & rs' & c1 & Hk & Hl & Hp & ->). eapply sourced_perm; [done|].
        rewrite (assoc_L (++)). apply sourced_upd; [|by eapply sourced_loads].
        simpl. unfold hit, value_of; simpl. by destruct (find_key k c1).
      * destruct Hd as [Hp ->]. simpl. rewrite app_nil_r. by eapply sourced_perm.
  - destruct (value_of k c) as [v0|] eqn:Hv.
    + destruct Hd as [Hp ->]. simpl. rewrite app_nil_r. by eapply sourced_perm.
    + eapply sourced_guards; [done|by apply value_none|done].
  - destruct (value_of k c) as [v0|] eqn:Hv.
    + destruct Hd as [Hp ->]. eapply sourced_perm; [done|]. by apply (sourced_upd k f c fs true).
    + assert (hit o = false) as ->.
      { destruct g as [v wl| |]; simpl in Hd; [destruct Hd as (kp & es & rs' & _ & _ & ->)|destruct Hd as [_ ->]..]; done. }
      eapply sourced_guards; [done|by apply value_none|done].
Qed.
Lemma past_snoc (h : list cmd) (os : list out) m o : length h = length os → past (h ++ [m]) (os ++ [o]) = past h os ++ effects m o.
Proof.
  revert os. induction h as [|m' h IH]; intros [|o' os] Hl; simplify_eq/=; [by rewrite app_nil_r|].
  rewrite IH by done. by rewrite (assoc_L (++)).
Qed.
Lemma run_length s h s' os : run s h = Ok (s', os) → length os = length h.
Proof.
  revert s os. induction h as [|m h IH]; intros s os; simpl; [by intros [= <- <-]|].
  destruct (exec s m) as [[s1 o]|]; [|done]. simpl. destruct (run s1 h) as [[s2 os2]|] eqn:Hr; [|done]. simpl.
  intros [= <- <-]. simpl. f_equal. by eapply IH.
Qed.
Lemma history_sourced budget ghosts cap h os s : history budget ghosts cap h os s → sourced (past h os) (sh_iter s).
Proof.
  intros H. eapply (history_ind LW budget ghosts cap (λ h os s, sourced (past h os) (sh_iter s))); [..|exact H].
  - intros k v Hin. by apply elem_of_nil in Hin.
  - intros h0 os0 s0 m o s' H0 HI Hc IH He Hs Hd. rewrite past_snoc by (symmetry; by eapply run_length).
    by eapply sourced_does.
Qed.
Lemma came_from_last fs k v :
  (∀ rs k v, (before_evict P rs k v).2 = v) →
  (∀ f, Filtered f ∈ fs → ∀ a b w, keqb P a b = true → f a w = f b w) →
  came_from fs k v → last_value fs k = Some v.
Proof.
  intros Hid Hf H. unfold last_value. induction H as [fs k k' v Hk|fs k k' v v' H IH Hk|fs k k' f v H IH Hk|fs k k' f v H IH Hk|fs k k' v H IH Hk|fs k k' f v H IH Hk Hfv|fs k k' rs rs' v v' H IH Hk Hb];
    rewrite ?foldl_app; simpl; rewrite ?Hk; try done.
  - apply IH. intros f Hi. apply Hf. rewrite elem_of_app. by left.
  - rewrite IH; [done|]. intros f0 Hi. apply Hf. rewrite elem_of_app. by left.
  - apply IH. intros f0 Hi. apply Hf. rewrite elem_of_app. by left.
  - apply IH. intros f0 Hi. apply Hf. rewrite elem_of_app. by left.
  - rewrite IH.
    2:{ intros f0 Hi. apply Hf. rewrite elem_of_app. by left. }
    rewrite (Hf f) with (b := k'); [by rewrite Hfv| |done]. rewrite elem_of_app. right. by left.
  - pose proof (Hid rs k' v) as Hv. rewrite Hb in Hv. simpl in Hv. subst v'. by apply IH.
Qed.
End seq2.
