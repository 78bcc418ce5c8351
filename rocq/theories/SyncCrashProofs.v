(* Panics in the sync cache: proofs. *)
From Verif Require Export CrashProofs SyncSeq SyncCrashSpec.

(* ---- the points under a lock ---- *)
Definition inside (q : point) : bool := match q with PHash | PBegin | PEnd | PLoader => false | _ => true end.
Section inside.
Context {P : Params}.
Notation M := (Crash.M (P:=P)).
Definition al {A} (m : M A) : Prop := ∀ p s, (p, s) ∈ m.1 → inside p = true.
Lemma al_lift {A} (r : res A) : al (lift r).
Proof. intros p s H. by apply elem_of_nil in H. Qed.
Lemma al_pt p s : inside p = true → al (pt p s).
Proof. intros H p' s' Hin. apply elem_of_list_singleton in Hin. by injection Hin as -> ->. Qed.
Lemma al_bind {A C} (m : M A) (f : A → M C) : al m → (∀ a, al (f a)) → al (mbind m f).
Proof.
  intros H1 H2 p s. unfold mbind. destruct m as [t [a|e]]; simpl in *; [|apply H1].
  intros [Hin|Hin]%elem_of_app; [by eapply H1|by eapply H2].
Qed.
Ltac als := repeat first
  [ apply al_lift
  | apply al_pt; reflexivity
  | solve [auto with al]
  | apply al_bind; intros
  | match goal with
    | |- al (match ?x with _ => _ end) => destruct x
    | |- al ((λ _, _) _) => cbv beta
    | |- al (let _ := _ in _) => cbv zeta
    end ].
Lemma al_search s h k : al (c_search s h k).
Proof. unfold c_search. als. Qed.
Lemma al_search_resident s h k : al (c_search_resident s h k).
Proof. unfold c_search_resident. als. Qed.
Hint Resolve al_search al_search_resident : al.
Lemma al_contains s h k : al (c_contains s h k). Proof. unfold c_contains. als. Qed.
Lemma al_get s h k : al (c_get s h k). Proof. unfold c_get. als. Qed.
Lemma al_peek s h k : al (c_peek s h k). Proof. unfold c_peek. als. Qed.
Lemma al_remove_internal s h i : al (c_remove_internal s h i). Proof. unfold c_remove_internal. als. Qed.
Hint Resolve al_contains al_get al_peek al_remove_internal : al.
Lemma al_remove s h k : al (c_remove s h k). Proof. unfold c_remove. als. Qed.
Lemma al_retain_remove q : ∀ s, al (c_retain_remove s q).
Proof. induction q as [|[i h] q IH]; intros s; simpl; als. Qed.
Hint Resolve al_remove al_retain_remove : al.
Lemma al_retain s f : al (c_retain s f). Proof. unfold c_retain. als. Qed.
Lemma al_hot_evict s l i r : al (c_hot_evict s l i r). Proof. unfold c_hot_evict. als. Qed.
Hint Resolve al_retain al_hot_evict : al.
Lemma al_hot_loop n : ∀ s l i u, al (c_advance_hot_loop n s l i u).
Proof. induction n as [|n IH]; intros; simpl; als. Qed.
Hint Resolve al_hot_loop : al.
Lemma al_hot s l : al (c_advance_hot s l). Proof. unfold c_advance_hot. als. Qed.
Hint Resolve al_hot : al.
Lemma al_trim n : ∀ s l, al (c_trim_hot n s l).
Proof. induction n as [|n IH]; intros; simpl; als. Qed.
Hint Resolve al_trim : al.
Lemma al_promote s l i r : al (c_cold_promote s l i r). Proof. unfold c_cold_promote. als. Qed.
Lemma al_cold_evict s l i r : al (c_cold_evict s l i r). Proof. unfold c_cold_evict. als. Qed.
Hint Resolve al_promote al_cold_evict : al.
Lemma al_cold_loop n : ∀ s l i, al (c_advance_cold_loop n s l i).
Proof. induction n as [|n IH]; intros; simpl; als. Qed.
Hint Resolve al_cold_loop : al.
Lemma al_cold s l : al (c_advance_cold s l). Proof. unfold c_advance_cold. als. Qed.
Hint Resolve al_cold : al.
Lemma al_evict_loop n : ∀ s l x, al (c_evict_loop n s l x).
Proof. induction n as [|n IH]; intros; simpl; als. Qed.
Hint Resolve al_evict_loop : al.
Lemma al_evict s l x : al (c_evict_until s l x). Proof. unfold c_evict_until. als. Qed.
Hint Resolve al_evict : al.
Lemma al_rehash gr ip s ps : inside gr = true → inside ip = true → ∀ d, al (c_rehash (P:=P) gr ip s d ps).
Proof.
  intros Hg Hi. induction ps as [|[h t] ps IH]; intros d; simpl; [als|].
  apply al_bind; [by apply al_pt|]. intros _. apply al_bind; [by apply al_pt|]. intros _. als.
Qed.
Lemma al_grow gr ip s : inside gr = true → inside ip = true → al (c_grow (P:=P) gr ip s).
Proof. intros. unfold c_grow. destruct (grows _ _); [|als]. by apply al_rehash. Qed.
Lemma al_map_insert gr ip s h t : inside gr = true → inside ip = true → al (c_map_insert (P:=P) gr ip s h t).
Proof. intros. unfold c_map_insert. apply al_bind; [by apply al_grow|]. intros. als. Qed.
Lemma al_reserve s : al (c_reserve (P:=P) s).
Proof. unfold c_reserve. apply al_bind; [by apply al_grow|]. intros. als. Qed.
Hint Resolve al_map_insert al_reserve : al.
Lemma al_existing s l i k v w st : al (c_insert_existing s l i k v w st). Proof. unfold c_insert_existing. als. Qed.
Lemma al_over s l h k v st : al (c_handle_insert_overweight s l h k v st). Proof. unfold c_handle_insert_overweight. als. Qed.
Hint Resolve al_existing al_over : al.
Lemma al_insert s l h k v st : al (c_insert s l h k v st). Proof. unfold c_insert. als. Qed.
Lemma al_over2 s l p k v : al (c_handle_overweight_replace_placeholder s l p k v).
Proof. unfold c_handle_overweight_replace_placeholder. als. Qed.
Hint Resolve al_insert al_over2 : al.
Lemma al_replace s l p b v : al (c_replace_placeholder s l p b v). Proof. unfold c_replace_placeholder. als. Qed.
Lemma al_upsert s h k : al (c_upsert_placeholder s h k). Proof. unfold c_upsert_placeholder. als. Qed.
Lemma al_inner s m : al (inner s m). Proof. unfold inner. als. Qed.
End inside.

Ltac trs := repeat first
  [ apply tr_lift
  | apply tr_pt; discriminate
  | apply tr_bind_lift; intros
  | apply tr_bind_pt; [first [discriminate|intros _]|]
  | match goal with |- tr _ (match ?x with _ => _ end) => destruct x end
  | match goal with |- tr _ (let '(_, _) := ?x in _) => destruct x end ].
Ltac fins := repeat first
  [ apply fin_lift
  | apply fin_end; reflexivity
  | apply fin_bind; [solve [trs]|intros]
  | match goal with |- CrashProofs.fin _ (match ?x with _ => _ end) => destruct x end
  | match goal with |- CrashProofs.fin _ (let '(_, _) := ?x in _) => destruct x end ].
Section sections.
Context {P : Params} (LW : Lawful P).
Notation K := (K P). Notation V := (V P). Notation RS := (RS P). Notation out := (out P).
Notation shard := (shard P). Notation M := (Crash.M (P:=P)).
Implicit Types (s : shard) (k : K) (v : V) (rs : RS) (p : plh).

Lemma er_inner s m : sync_cmd m = true → (inner s m).2 = exec s m.
Proof.
  intros Hm. destruct m; try discriminate; cbn [inner exec]; unfold mbind, u_contains, u_get, u_peek, u_remove, u_replace, u_insert; cbn [fst snd].
  - by rewrite er_contains; destruct (sh_contains _ _ _).
  - by rewrite er_get; destruct (sh_get _ _ _) as [[??]|].
  - by rewrite er_peek; destruct (sh_peek _ _ _).
  - by rewrite er_remove; destruct (sh_remove _ _ _) as [[??]|].
  - rewrite er_insert; destruct (sh_insert _ _ _ _ _ _) as [[[??][?|]]|]; try done.
  - rewrite er_insert; destruct (sh_insert _ _ _ _ _ _) as [[[??]?]|]; try done. simpl. by destruct (assert _).
  - by rewrite er_retain; destruct (sh_retain _ _).
  - done.
  - by rewrite er_reserve; destruct (sh_reserve _).
Qed.

Lemma unmapped_nonew s k es i : Inv s → absent s k →
  slab_insert (sh_ents s) (Placeholder (Pla k Cold (Plh (hash P k) (next_free (sh_ents s)) (sh_nph s)))) = Ok (es, i) →
  nonew s (set_ents (set_nph s (sh_nph s + 1)) es).
Proof.
  intros (rs & fl & HI) Ha E.
  pose proof (RI_insert (λ _, True) _ _ _ (Placeholder (Pla k Cold (Plh (hash P k) (next_free (sh_ents s)) (sh_nph s))))
    (i_ri _ _ _ HI) ltac:(done)) as H.
  rewrite E in H. simpl in H. destruct H as (Htn & Hni & Hit & HR1).
  rename i into t. rewrite <-Htn in *.
  set (p := Pla k Cold (Plh (hash P k) t (sh_nph s))) in *.
  assert (added (its_of s) (items es) t (Placeholder p)) as Hadd by (apply added_intro; unfold its_of; tauto).
  destruct Hadd as (Hn & Ht & Hfr & Hsum & Hkv).
  split; [simpl; lia|]. intros t' q b [Hq Hb]%ph_at_Some. change (b = bool_decide (mapped s t')) in Hb.
  change (its_of _) with (items es) in Hq. destruct (decide (t' = t)) as [->|Hne].
  - right. rewrite Ht in Hq. injection Hq as <-. split; [|simpl; lia]. rewrite Hb. apply bool_decide_eq_false. intros Hm.
    destruct (m_tok _ _ _ _ (i_map _ _ _ HI) Hm) as (e0 & He0 & _). by destruct (Hn e0).
  - left. apply ph_at_Some. split; [by apply Hfr|done].
Qed.
Lemma tr_upsert_new s k : Inv s → tr (λ _ s', nonew s s') (c_upsert_placeholder s (hash P k) k).
Proof.
  intros HI. unfold c_upsert_placeholder. apply tr_bind; [apply tr_search, nonew_refl|].
  intros o. rewrite er_search. destruct (search_spec LW s k HI) as (o' & -> & Ho). intros [= <-].
  destruct Ho as [t e k' Hm Ht He Hk|t Hm Ht Ha|Ha Hg].
  - trs. apply nonew_refl.
  - trs. apply nonew_refl.
  - apply tr_bind_pt; [intros _; apply nonew_refl|]. cbv zeta. apply tr_bind_lift. intros [es i] E.
    apply tr_bind_lift. intros _ _. apply tr_bind; [|intros; trs]. apply tr_map_insert; [|done].
    intros _. by eapply unmapped_nonew.
Qed.
Lemma tr_both {A} Q1 Q2 (m : M A) : tr Q1 m → tr Q2 m → tr (λ q s, Q1 q s ∧ Q2 q s) m.
Proof. intros H1 H2 p s Hin Hh. split; [by apply H1|by apply H2]. Qed.

(* the harmless points of a plain call *)
Lemma tr_inner s m : Inv s → sync_cmd m = true → tr (λ q s', Qx s m q s' ∧ nonew s s') (inner s m).
Proof.
  intros HI Hm. pose proof (λ q, conj (Qx_same s m q s (Qsame_now s q HI)) (nonew_refl s)) as Hnow.
  destruct m as [k|k|k|k f|k f|k|rs k v soft wl|rs k v wl|f| | | |rs k w|rs k w f|rs k g|rs k f g]; try discriminate; cbn [inner].
  - unfold c_contains. apply tr_assoc. trs. done.
  - unfold c_get. apply tr_assoc. trs. done.
  - unfold c_peek. apply tr_assoc. trs. done.
  - unfold c_remove. apply tr_assoc, tr_bind; [by apply tr_search|]. intros [t|] _; [|trs].
    apply tr_bind; [apply tr_remove_internal|]. intros [? ?] _. trs.
  - apply tr_bind; [by apply tr_insert|]. intros [[? ?] ?] _. trs.
  - apply tr_bind; [by apply tr_insert|]. intros [[? ?] ?] _. trs.
  - unfold c_retain. apply tr_assoc, tr_bind_pt; [done|]. apply tr_bind; [apply tr_retain_remove|]. intros. trs.
  - trs.
  - unfold c_reserve. apply tr_assoc, tr_bind; [apply tr_grow; [done|done]|]. intros. trs.
Qed.

(* the harmless points of a load's insertion *)
Lemma tr_place s p kp rs ref v : Inv s → good_handle s p → owned s p = Some kp → find_key kp (sh_iter s) = None →
  tr (λ q s', Qin s kp v q s' ∧ nonew s s' ∧ ph_at s' (ph_idx p) = None) (c_replace_placeholder s (Lcs rs []) p ref v).
Proof.
  intros HI1 Hg Ho Hf.
  unfold owned in Ho. destruct (ph_at s (ph_idx p)) as [[q b]|] eqn:Hph; [|done].
  destruct (same_as (p_shared q) p) eqn:Hsa; [|done]. injection Ho as <-.
  destruct (Hg _ _ Hph Hsa) as [-> Hpq]. apply ph_at_Some in Hph as [Ht Hb].
  symmetry in Hb. apply bool_decide_eq_true in Hb as Hm.
  unfold c_replace_placeholder. destruct (get_live _ _ _ Ht) as (n & -> & _). rewrite Hsa. cbv zeta.
  apply tr_bind_pt; [done|].
  change (sh_target_hot (set_entry s (ph_idx p) (Ghost 0))) with (sh_target_hot s).
  pose proof (admission_eq (sh_target_hot s) (Lcs rs []) (p_key q) v) as Had. unfold admission_l in Had.
  destruct (admission (sh_target_hot s) (lrs (Lcs rs [])) (p_key q) v) as [[[rs1 es0] v1] over] eqn:Hadm. rewrite Had. clear Had.
  apply adm_value in Hadm. set (l1 := Lcs rs1 _). destruct over.
  - destruct (over_ph_spec LW s l1 p q v1 (Ghost 0) HI1 Ht Hm Hpq) as (s' & E & HI' & Hi' & Hm' & Hst').
    rewrite <-er_over2 in E. apply tr_bind; [|intros [? ?] _; trs].
    eapply (fin_tr (λ a, a.1)); [unfold c_handle_overweight_replace_placeholder; fins|].
    intros b' q' Ea Hc. rewrite E in Ea. injection Ea as <-. simpl.
    destruct (cfg_static _ _ Hst') as [Hc' _].
    destruct (removed_facts s s' _ _ HI1 Ht Hm Hi' Hm') as [Hph' _]. split_and!.
    + apply (Qin_same rs); [done|congruence|]. rewrite !sh_iter_kvs, Hi'. by rewrite (kvs_same _ _ _ _ Ht).
    + apply nonew_same; [by apply nph_static|]. intros t q0 b0. rewrite Hph'. by case_decide.
    + rewrite Hph'. by case_decide.
  - apply tr_bind_lift. intros a E0. apply tr_bind_lift. intros a' E0'. apply tr_bind_lift. intros s2 E1.
    rewrite set_entry_twice in E1.
    change (sh_capacity (set_entry s (ph_idx p) (Ghost 0))) with (sh_capacity s) in *.
    set (st := if (_ <=? sh_capacity s)%N then Hot else p_hot q) in *.
    destruct (negb _) eqn:Hz; [|trs]. apply tr_bind_lift. intros s3 E2.
    set (r' := Res (p_key q) v1 st (if ref then 1 else 0)%N).
    assert (enter (set_entry s (ph_idx p) (Resident r')) st (ph_idx p) (weight P (p_key q) v1) = Ok s3) as Er.
    { unfold enter, r'. rewrite E1. cbn [rbind]. rewrite Hz. exact E2. }
    destruct (N.ltb_spec (a_weight (sh_acct s st) + weight P (p_key q) v1) two64) as [HW|HW].
    2:{ rewrite enter_ovf in Er; [done|]. by destruct st. }
    destruct (enter_ph_spec LW s (ph_idx p) q r' HI1 Ht Hm (keqb_refl _ LW _) HW) as (s4 & Hen & HI4 & Hit4 & Hm4 & Hst4).
    change (r_state r') with st in Hen. change (rweight r') with (weight P (p_key q) v1) in Hen. rewrite Er in Hen. injection Hen as <-.
    destruct (cfg_static _ _ Hst4) as [Hc4 _].
    assert (nonew s s3) as Hn by (by eapply nonew_set).
    apply tr_bind; [|intros [? ?] _; trs].
    eapply tr_mono; [|by apply tr_evict]. intros q' s' _ HQ. split.
    + eapply Qin_ev; [| |exact HQ]; [congruence|].
      right. right. exists (p_key q), v1. split; [apply (keqb_refl _ LW)|]. split; [done|]. rewrite (del_none _ _ Hf).
      rewrite !sh_iter_kvs, Hit4. etrans; [by apply (kvs_insert _ _ _ _ Ht)|]. simpl. f_equiv.
      by rewrite (kvs_same _ _ _ None Ht).
    + destruct HQ as (_ & HI' & l' & Hev). split; [by eapply nonew_ev|]. rewrite (ev_ph _ _ _ _ _ Hev).
      unfold ph_at. by rewrite Hit4, list_lookup_insert by (by eapply lookup_lt_Some).
Qed.
End sections.
