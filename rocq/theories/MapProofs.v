(* A cache that never runs out of room does what a plain map does. *)
From Verif Require Export MapSpec SeqProofs4 ConcInv.

Section mapproofs.
Context {P : Params} (LW : Lawful P) (ST : same_keys (P:=P)).
Notation K := (K P). Notation V := (V P). Notation RS := (RS P).
Notation out := (out P). Notation cmd := (cmd P).
Implicit Types (k : K) (v : V) (c : contents P) (rs : RS).

Lemma takes_admission budget rs k v : takes budget k v → admission budget rs k v = (rs, [], v, false).
Proof.
  intros H. unfold admission. destruct ((budget <? weight P k v)%N) eqn:E; [|done].
  destruct H as [H| ->]; [apply N.ltb_lt in E; lia|done].
Qed.
Lemma takes_stored budget rs k v : takes budget k v → stored budget rs k v = v.
Proof.
  intros H. unfold stored. destruct ((budget <? weight P k v)%N) eqn:E; [|done].
  destruct H as [H| ->]; [apply N.ltb_lt in E; lia|done].
Qed.
Lemma takes_over budget k v : takes budget k v → (budget <? weight P k v)%N && negb (pinned P k v) = false.
Proof.
  intros H. destruct ((budget <? weight P k v)%N) eqn:E; [|done].
  destruct H as [H| ->]; [apply N.ltb_lt in E; lia|done].
Qed.
Lemma takes_refused budget rs k v : takes budget k v → ¬ refused budget rs k v.
Proof. intros [H|H] (H1 & H2 & _); [lia|congruence]. Qed.

Lemma inserts_room cap budget b rs c k v es rs' c' o :
  inserts cap budget b rs c k v es rs' c' o → (b = true ∨ has k c = true) → room cap budget c k v →
  c' ≡ₚ (k, v) :: del k c ∧ o = None ∧ es = match find_key k c with Some (ko, vo) => [EvEvict ko vo] | None => [] end.
Proof.
  intros H Hb [Ht Hw]. rewrite wsum_cons in Hw.
  pose proof (inserts_fits _ _ _ _ _ _ _ _ _ _ _ H (takes_refused _ rs _ _ Ht) Hb) as HH.
  rewrite (takes_stored _ rs _ _ Ht), (takes_over _ _ _ Ht) in HH. apply HH. lia.
Qed.
Lemma replace_absent cap budget rs c k v es rs' c' o :
  inserts cap budget false rs c k v es rs' c' o → has k c = false → takes budget k v →
  c' ≡ₚ c ∧ o = Some (k, v) ∧ es = [].
Proof.
  intros H Hb Ht. unfold has in Hb. destruct (find_key k c) eqn:Hf0; [done|].
  pose proof (takes_admission _ rs _ _ Ht) as Ha0.
  inversion H as [rs1 es1 v1 c1 Ha Hf Hp|rs1 es1 v1 ko vo c1 Ha Hf Hp|rs1 es1 v1 c1 Ha Hf Hcr Hp
    |rs1 es1 v1 ko vo es2 rs2 c1 Ha Hf He Hw Hn|rs1 es1 v1 es2 rs2 c1 c2 Ha Hf Hcr He Hw Hn Hp|rs1 es1 v1 es2 rs2 c1 Ha Hf Hcr He Hw Hn]; subst;
    rewrite Ha0 in Ha; try congruence.
  injection Ha as <- <- <-. done.
Qed.
Lemma loads_room cap budget rs c k v es rs' c' :
  loads cap budget rs c k v es rs' c' → takes budget k v → (wsum ((k, v) :: c) ≤ cap)%N → c' ≡ₚ (k, v) :: c ∧ es = [].
Proof.
  intros H Ht Hw. rewrite wsum_cons in Hw.
  pose proof (loads_fits _ _ _ _ _ _ _ _ _ H (takes_refused _ rs _ _ Ht)) as HH.
  rewrite (takes_stored _ rs _ _ Ht), (takes_over _ _ _ Ht) in HH. apply HH. lia.
Qed.

Lemma filter_perm_map (f : K * V → bool) c d : c ≡ₚ d → List.filter f c ≡ₚ List.filter f d.
Proof.
  induction 1; simpl; repeat case_match; try done.
  - by f_equiv.
  - by rewrite Permutation_swap.
  - by etrans.
Qed.
Lemma has_value k c : has k c = true ↔ value_of k c ≠ None.
Proof. unfold has, value_of. destruct (find_key k c); simpl; split; done. Qed.
Lemma value_none k c : value_of k c = None → find_key k c = None.
Proof. unfold value_of. by destruct (find_key k c). Qed.
Lemma ukeys_new k v c : ukeys c → find_key k c = None → ukeys ((k, v) :: c).
Proof. intros Hu Hf. split; [|done]. apply Forall_forall. by apply find_key_None. Qed.
Lemma value_new k v c : value_of k ((k, v) :: c) = Some v.
Proof. unfold value_of. cbn [find_key fst]. by rewrite (keqb_refl _ LW). Qed.

(* the load of an absent key, as far as all calls have it in common *)
Lemma load_new cap budget rs c d k kp v es rs' c' :
  ukeys c → c ≡ₚ d → value_of k c = None → keqb P k kp = true →
  has k d = true ∨ room cap budget d k v → loads cap budget rs c kp v es rs' c' →
  c' ≡ₚ (k, v) :: d ∧ ukeys c' ∧ es = [] ∧ value_of k c' = Some v.
Proof.
  intros Hu Hp Hv Hk HF HL. apply ST in Hk as <-. pose proof (value_none _ _ Hv) as Hf.
  pose proof (find_key_perm LW k _ _ Hu Hp) as Hfd. rewrite Hf in Hfd.
  destruct HF as [HF|[Ht Hw]]; [unfold has in HF; by rewrite <-Hfd in HF|].
  rewrite del_none in Hw by done. rewrite <-Hp in Hw.
  destruct (loads_room _ _ _ _ _ _ _ _ _ HL Ht Hw) as [Hp' ->].
  assert (ukeys c') as Hu'. { apply (ukeys_perm LW _ _ Hp'). by apply ukeys_new. }
  split_and!; [by rewrite Hp', Hp|done|done|]. unfold value_of. rewrite (find_key_perm LW k _ _ Hu' Hp'). apply value_new.
Qed.

Lemma map_step cap budget c d (m : cmd) (o : out) c' :
  ukeys c → c ≡ₚ d → fits cap budget d m → does cap budget c m o c' →
  agree (o_ret o) (map_exec d m).1 ∧ c' ≡ₚ (map_exec d m).2 ∧ hooks_of o = overwrites d m.
Proof.
  intros Hu Hp HF HD.
  assert (∀ k, find_key k d = find_key k c) as Hf by (intros k; symmetry; by apply (find_key_perm LW)).
  assert (∀ k, value_of k d = value_of k c) as Hv by (intros k; unfold value_of; by rewrite Hf).
  assert (∀ k, has k d = has k c) as Hh by (intros k; unfold has; by rewrite Hf).
  assert (∀ k f, Spec.upd k f c ≡ₚ Spec.upd k f d) as Hup by (intros; by apply upd_perm).
  assert (∀ k, del k c ≡ₚ del k d) as Hdl by (intros; by apply del_perm).
  destruct m as [k|k|k|k f|k f|k|rs k v soft wl|rs k v wl|f| | | |rs k w|rs k w f|rs k g|rs k f g]; cbn [does fits map_exec overwrites] in *;
    rewrite ?Hv, ?Hh, ?Hf.
  - destruct HD as [HD ->]. split_and!; [done|by (etrans; [exact HD|cbn [fst snd]; auto])|done].
  - destruct HD as [HD ->]. split_and!; [done|by (etrans; [exact HD|cbn [fst snd]; auto])|done].
  - destruct HD as [HD ->]. split_and!; [done|by (etrans; [exact HD|cbn [fst snd]; auto])|done].
  - destruct HD as [HD ->]. split_and!; [done|by (etrans; [exact HD|cbn [fst snd]; auto])|done].
  - destruct HD as [HD ->]. split_and!; [done|by (etrans; [exact HD|cbn [fst snd]; auto])|done].
  - destruct HD as [HD ->]. split_and!; [done|by (etrans; [exact HD|cbn [fst snd]; auto])|done].
  - destruct HD as (es & rs' & b & HI & ->). destruct HF as [Ht Hr]. rewrite Hh in Hr. destruct (has k c) eqn:Eh.
    + destruct (inserts_room _ _ _ _ _ _ _ _ _ _ _ HI (or_intror Eh)) as (H1 & -> & ->).
      { destruct (Hr eq_refl) as [? Hw]. split; [done|]. by rewrite Hdl. }
      rewrite hooks_of_reply. split_and!; [done|by rewrite H1, Hdl|done].
    + destruct (replace_absent _ _ _ _ _ _ _ _ _ _ HI Eh Ht) as (H1 & -> & ->).
      rewrite hooks_of_begin. split_and!; [done|by (etrans; [exact H1|auto])|]. unfold has in Eh. by destruct (find_key k c).
  - destruct HD as (es & rs' & HI & ->).
    destruct (inserts_room _ _ _ _ _ _ _ _ _ _ _ HI (or_introl eq_refl)) as (H1 & _ & ->).
    { destruct HF as [? Hw]. split; [done|]. by rewrite Hdl. }
    rewrite hooks_of_reply. split_and!; [done|by rewrite H1, Hdl|done].
  - destruct HD as [HD ->]. split_and!; [done| |done]. rewrite HD. by apply filter_perm_map.
  - by destruct HD as [-> ->].
  - destruct HD as (-> & l & Hl & ->). split_and!; [|done|done]. cbn. by rewrite Hl.
  - destruct HD as [HD ->]. split_and!; [done|by (etrans; [exact HD|cbn [fst snd]; auto])|done].
  - destruct (value_of k c) as [v0|] eqn:Ev.
    { destruct HD as [HD ->]. split_and!; [done|by (etrans; [exact HD|cbn [fst snd]; auto])|done]. }
    destruct w as [v|]; [|destruct HD as [HD ->]; split_and!; [done|by (etrans; [exact HD|cbn [fst snd]; auto])|done]].
    destruct HD as (kp & es & rs' & Hk & HL & ->).
    destruct (load_new _ _ _ _ _ _ _ _ _ _ _ Hu Hp Ev Hk HF HL) as (H1 & H2 & -> & H4).
    rewrite hooks_of_reply. split_and!; [cbn; by rewrite H4|done|done].
  - destruct (value_of k c) as [v0|] eqn:Ev.
    { destruct HD as [HD ->]. split_and!; [done|by (etrans; [exact HD|cbn [fst snd]; auto])|done]. }
    destruct w as [v|]; [|destruct HD as [HD ->]; split_and!; [done|by (etrans; [exact HD|cbn [fst snd]; auto])|done]].
    destruct HD as (kp & es & rs' & c1 & Hk & HL & HU & ->).
    destruct (load_new _ _ _ _ _ _ _ _ _ _ _ Hu Hp Ev Hk HF HL) as (H1 & H2 & -> & H4).
    rewrite hooks_of_reply. split_and!; [cbn; by rewrite H4| |done].
    rewrite HU, (upd_perm k f _ _ H1). rewrite (upd_head LW); [done| |apply (keqb_refl _ LW)].
    by apply (ukeys_perm LW _ _ H1).
  - destruct (value_of k c) as [v0|] eqn:Ev.
    { destruct HD as [HD ->]. split_and!; [done|by (etrans; [exact HD|cbn [fst snd]; auto])|done]. }
    destruct g as [v wl| |]; cbn [guards] in HD; [|destruct HD as [HD ->]; split_and!; [done|by (etrans; [exact HD|cbn [fst snd]; auto])|done]..].
    destruct HD as (kp & es & rs' & Hk & HL & ->).
    destruct (load_new _ _ _ _ _ _ _ _ _ _ _ Hu Hp Ev Hk HF HL) as (H1 & H2 & -> & H4).
    rewrite hooks_of_reply. by split_and!.
  - destruct (value_of k c) as [v0|] eqn:Ev.
    { destruct HD as [HD ->]. split_and!; [done|by (etrans; [exact HD|cbn [fst snd]; auto])|done]. }
    destruct g as [v wl| |]; cbn [guards] in HD; [|destruct HD as [HD ->]; split_and!; [done|by (etrans; [exact HD|cbn [fst snd]; auto])|done]..].
    destruct HD as (kp & es & rs' & Hk & HL & ->).
    destruct (load_new _ _ _ _ _ _ _ _ _ _ _ Hu Hp Ev Hk HF HL) as (H1 & H2 & -> & H4).
    rewrite hooks_of_reply. by split_and!.
Qed.

Lemma map_after_app c h m : map_after c (h ++ [m]) = (map_exec (map_after c h) m).2.
Proof. unfold map_after. by rewrite foldl_app. Qed.
Lemma all_fit_app cap budget h (m : cmd) : all_fit cap budget (h ++ [m]) → all_fit cap budget h ∧ fits cap budget (map_after [] h) m.
Proof.
  intros H. split; [|by apply (H h m [])]. intros h1 m1 h2 ->. apply (H h1 m1 (h2 ++ [m])). by rewrite <-app_assoc.
Qed.
Lemma map_history budget ghosts cap (h : list cmd) (os : list out) s : history budget ghosts cap h os s → all_fit cap budget h →
  sh_iter s ≡ₚ map_after [] h ∧ length os = length h ∧
  ∀ h1 m h2 o, h = h1 ++ m :: h2 → os !! length h1 = Some o →
    agree (o_ret o) (map_exec (map_after [] h1) m).1 ∧ hooks_of o = overwrites (map_after [] h1) m.
Proof.
  intros H. eapply (history_ind LW budget ghosts cap (λ (h : list cmd) (os : list out) s, all_fit cap budget h →
    sh_iter s ≡ₚ map_after [] h ∧ length os = length h ∧
    ∀ h1 m h2 o, h = h1 ++ m :: h2 → os !! length h1 = Some o →
    agree (o_ret o) (map_exec (map_after [] h1) m).1 ∧ hooks_of o = overwrites (map_after [] h1) m)); [..|exact H].
  - intros _. split_and!; [done|done|]. by intros [|??] ?.
  - clear - LW ST. intros h os s m o s' _ HI _ IH _ _ HD HF. apply all_fit_app in HF as [HF Hm].
    destruct (IH HF) as (Hp & Hl & Ho).
    destruct (map_step _ _ _ _ _ _ _ (inv_ukeys LW _ HI) Hp Hm HD) as (H1 & H2 & H3).
    rewrite map_after_app, !app_length, Hl. split_and!; [done|done|].
    intros h1 m1 h2 o1 E Hlk. destruct h2 as [|m2 h2 _] using rev_ind.
    + apply app_inj_tail in E as [<- <-]. rewrite <-Hl, list_lookup_middle in Hlk by done. by injection Hlk as <-.
    + rewrite app_comm_cons, app_assoc in E. apply app_inj_tail in E as [-> <-].
      apply (Ho h1 m1 h2); [done|]. rewrite lookup_app_l in Hlk; [done|]. rewrite Hl, app_length. simpl. lia.
Qed.

(* ---- the sections of a shard ---- *)
Definition map_ok (d : sst P) : Prop :=
  ukeys (ss_items d) ∧ (∀ id k, ss_pend d id = Some k → find_key k (ss_items d) = None) ∧
  (∀ id id' k, ss_pend d id = Some k → ss_pend d id' = Some k → id = id').
Lemma ukeys_filter (f : K * V → bool) c : ukeys c → ukeys (List.filter f c).
Proof.
  induction c as [|p c IH]; [done|]. cbn [List.filter ukeys]. intros [Hp Hu]. destruct (f p); [|auto]. split; [|auto].
  rewrite Forall_forall in *. intros q [Hq _]%elem_of_list_In%List.filter_In. by apply Hp, elem_of_list_In.
Qed.
Lemma find_filter (f : K * V → bool) k c : find_key k c = None → find_key k (List.filter f c) = None.
Proof. rewrite !find_key_None. intros H p [Hq _]%elem_of_list_In%List.filter_In. by apply H, elem_of_list_In. Qed.
Lemma find_del k c : find_key k (del k c) = None.
Proof. apply find_key_None. by intros p [_ ?]%del_elem. Qed.
Lemma find_cons k k' v c : find_key k' c = None → keqb P k' k = false → find_key k' ((k, v) :: c) = None.
Proof. intros H1 H2. cbn [find_key fst]. by rewrite H2. Qed.
Lemma pdel_some k (pd : N → option K) id k' : pdel k pd id = Some k' → pd id = Some k' ∧ keqb P k' k = false.
Proof.
  unfold pdel. destruct (pd id) as [k1|]; [|done]. destruct (keqb P k k1) eqn:E; [done|]. intros [= ->]. split; [done|].
  destruct (keqb P k' k) eqn:E'; [|done]. apply ST in E' as ->. by rewrite (keqb_refl _ LW) in E.
Qed.
Lemma map_ok_cmd c (m : cmd) (pd pd' : N → option K) n n' : sync_cmd m = true → map_ok (SSt c pd n) → same_pend pd' (map_pend m pd) →
  map_ok (SSt (map_exec c m).2 pd' n').
Proof.
  intros Hs (Hu & Ha & Hi) Hpd. cbn [ss_items ss_pend] in *.
  assert (∀ id k, map_pend m pd id = Some k → pd id = Some k) as Hsub.
  { intros id k. destruct m; cbn [map_pend]; try done; by intros [? _]%pdel_some. }
  assert (∀ id id' k, pd' id = Some k → pd' id' = Some k → id = id') as Hi'.
  { intros id id' k. rewrite !Hpd. intros ?%Hsub ?%Hsub. by eapply Hi. }
  destruct m as [k|k|k|k f|k f|k|rs k v soft wl|rs k v wl|f| | | |rs k w|rs k w f|rs k g|rs k f g]; try done; cbn [map_exec snd fst map_pend] in *;
    split_and!; cbn [ss_items ss_pend] in *; try done; try (intros id k1; rewrite Hpd; apply Ha).
  - by apply ukeys_filter.
  - intros id k1. rewrite Hpd. intros [H _]%pdel_some. by eapply find_filter, Ha.
  - destruct (has k c); [|done]. apply ukeys_new; [by apply ukeys_filter|apply find_del].
  - intros id k1. rewrite Hpd. intros H. destruct (has k c) eqn:E; [|by eapply Ha]. apply find_cons; [by eapply find_filter, Ha|].
    destruct (keqb P k1 k) eqn:E'; [|done]. apply ST in E' as ->. unfold has in E. by rewrite (Ha _ _ H) in E.
  - apply ukeys_new; [by apply ukeys_filter|apply find_del].
  - intros id k1. rewrite Hpd. intros [H ?]%pdel_some. apply find_cons; [by eapply find_filter, Ha|done].
  - by apply ukeys_filter.
  - intros id k1. rewrite Hpd. intros H. by eapply find_filter, Ha.
Qed.
Lemma map_sec_ok (d d' : sst P) x r : map_ok d → map_sec d x r d' → map_ok d'.
Proof.
  destruct d as [e q n], d' as [e' q' n']. intros HK. pose proof HK as (Hu & Ha & Hi). cbn [ss_items ss_pend] in Hu, Ha, Hi.
  assert (∀ q' n', same_pend q' q → map_ok (SSt e q' n')) as Hs.
  { intros q1 n1 H. split_and!; cbn [ss_items ss_pend]; [done|..]; intros *; rewrite !H; eauto. }
  destruct x as [m|k|rs id v wl|id], r as [o|v0|id0|id0|v0|]; try done; cbn [map_sec].
  - intros (H0 & _ & _ & -> & H4 & _). by apply (map_ok_cmd e m q q' n n').
  - intros (_ & -> & H3 & _). auto.
  - intros (_ & _ & -> & H3 & _). auto.
  - intros (H1 & H2 & -> & -> & H4 & _). split_and!; cbn [ss_items ss_pend]; [done|..].
    + intros i k1. rewrite H4. unfold pset. case_decide; [intros [= <-]; by apply value_none|apply Ha].
    + intros i i' k1. rewrite !H4. unfold pset. repeat case_decide; subst; try done; intros E1 E2; try congruence. by eapply Hi.
  - intros (k & H1 & _ & -> & H4 & _). split_and!; cbn [ss_items ss_pend].
    + apply ukeys_new; [done|by eapply Ha].
    + intros i k1. rewrite H4. unfold pset. case_decide; [done|]. intros E. apply find_cons; [by eapply Ha|].
      destruct (keqb P k1 k) eqn:E'; [|done]. apply ST in E' as ->. by rewrite (Hi _ _ _ E H1) in *.
    + intros i i' k1. rewrite !H4. unfold pset. repeat case_decide; try done. apply Hi.
  - intros (_ & _ & -> & H3 & _). auto.
  - intros (-> & H4 & _). split_and!; cbn [ss_items ss_pend]; [done|..].
    + intros i k1. rewrite H4. unfold pset. case_decide; [done|]. apply Ha.
    + intros i i' k1. rewrite !H4. unfold pset. repeat case_decide; try done. apply Hi.
Qed.
Lemma map_secs_ok g (d : sst P) : map_secs g d → map_ok d.
Proof. induction 1; [by split_and!|by eapply map_sec_ok]. Qed.
Lemma map_sec_step cap budget (a a' d : sst P) x r : sdoes cap budget a x r a' → map_ok d →
  ss_items a ≡ₚ ss_items d → same_pend (ss_pend a) (ss_pend d) → ss_next a = ss_next d → sec_fits cap budget d x r →
  ∃ d' : sst P, map_sec d x r d' ∧ ss_items a' ≡ₚ ss_items d' ∧ same_pend (ss_pend a') (ss_pend d') ∧ ss_next a' = ss_next d'.
Proof.
  destruct a as [c pd n], a' as [c' pd' n'], d as [e q l]. cbn [ss_items ss_pend ss_next]. intros HD HK Hp Hq <- HF.
  pose proof HK as (Hu & Ha & Hi). cbn [ss_items ss_pend] in Hu, Ha, Hi.
  assert (ukeys c) as Huc by (by apply (ukeys_perm LW _ _ Hp)).
  assert (∀ k, value_of k e = value_of k c) as Hv by (intros k; unfold value_of; by rewrite (find_key_perm LW k _ _ Huc Hp)).
  destruct x as [m|k|rs id v wl|id], r as [o|v0|id0|id0|v0|]; try done; cbn [sdoes sec_fits ss_items ss_pend map_sec] in *.
  - destruct HD as (Hs & HD & Hpd & ->). destruct (map_step _ _ _ _ _ _ _ Huc Hp HF HD) as (H1 & H2 & H3).
    assert (same_pend pd' (map_pend m q)) as Hpd'.
    { intros i. rewrite Hpd. destruct m; try done; cbn [pend_after map_pend]; try apply Hq.
      - unfold pdel. by rewrite Hq.
      - destruct HF as [Ht _]. rewrite (takes_admission _ _ _ _ Ht). cbn [snd]. unfold pdel. by rewrite Hq. }
    exists (SSt (map_exec e m).2 pd' n). by split_and!.
  - destruct HD as (H1 & H2 & H3 & ->). exists (SSt e q n). rewrite Hv. split_and!; try done; [by rewrite H2|intros i; by rewrite H3].
  - destruct HD as (H1 & (k' & H2 & Hk) & H3 & H4 & ->). apply ST in Hk as <-. exists (SSt e q n). rewrite Hv, <-Hq. split_and!; try done; [by rewrite H3|intros i; by rewrite H4].
  - destruct HD as (H1 & H2 & -> & H3 & H4 & ->).
    assert (∀ i, q i ≠ Some k) as Hnew. { intros i Hi'. rewrite <-Hq in Hi'. apply H2 in Hi'. by rewrite (keqb_refl _ LW) in Hi'. }
    exists (SSt e (pset n (Some k) q) (n + 1)). rewrite Hv. cbn [ss_items ss_pend]. split_and!; try done.
    + by rewrite H3.
    + intros i. rewrite H4. unfold pset. case_decide; [done|apply Hq].
  - destruct HD as (k & es & rs' & H1 & HL & -> & H4 & ->). rewrite Hq in H1. destruct (HF _ H1) as [Ht Hw]. rewrite <-Hp in Hw.
    destruct (loads_room _ _ _ _ _ _ _ _ _ HL Ht Hw) as [Hp' ->].
    exists (SSt ((k, v) :: e) (pset id None q) n). rewrite hooks_of_reply. cbn [ss_items ss_pend ss_next]. split_and!; try done.
    + exists k. by split_and!.
    + by rewrite Hp', Hp.
    + intros i. rewrite H4. unfold pset. case_decide; [done|apply Hq].
  - destruct HD as (H1 & -> & H3 & H4 & ->). exists (SSt e q n). rewrite <-Hq. split_and!; try done; [by rewrite H3|intros i; by rewrite H4].
  - destruct HD as (H3 & H4 & ->). exists (SSt e (pset id None q) n). cbn [ss_items ss_pend ss_next]. split_and!; try done.
    + by rewrite H3.
    + intros i. rewrite H4. unfold pset. case_decide; [done|apply Hq].
Qed.
Lemma map_legal cap budget g (a : sst P) : legal cap budget g a → secs_fit cap budget g →
  ∃ d : sst P, map_secs g d ∧ ss_items a ≡ₚ ss_items d ∧ same_pend (ss_pend a) (ss_pend d) ∧ ss_next a = ss_next d.
Proof.
  induction 1 as [|g a x r a' HL IH HD]; intros HF.
  - exists (SSt [] (λ _, None) 0). split_and!; try done. constructor.
  - destruct IH as (d & H1 & H3 & H4 & H5). { intros g1 x1 r1 g2 d ->. eapply (HF g1 x1 r1 (g2 ++ [(x, r)])). by rewrite <-app_assoc. }
    destruct (map_sec_step _ _ _ _ _ _ _ HD (map_secs_ok _ _ H1) H3 H4 H5 (HF g x r [] d eq_refl H1)) as (d' & ? & ? & ? & ?).
    exists d'. split_and!; try done. by econstructor.
Qed.

(* ---- few enough keys ---- *)
Lemma sub_elem {A} (l l' : list A) x : l `sublist_of` l' → x ∈ l → x ∈ l'.
Proof. induction 1; rewrite ?elem_of_cons; naive_solver. Qed.
Lemma NoDup_sublist {A} (l l' : list A) : l `sublist_of` l' → NoDup l' → NoDup l.
Proof.
  induction 1 as [|x l l' Hs IH|x l l' Hs IH]; [done|..]; intros [Hx Hn]%NoDup_cons; [|auto].
  constructor; [|auto]. intros Hin. destruct Hx. by eapply sub_elem.
Qed.
Lemma keys_filter (f : K * V → bool) c : (List.filter f c).*1 `sublist_of` c.*1.
Proof. induction c as [|p c IH]; [done|]. cbn [List.filter]. destruct (f p); csimpl; by constructor. Qed.
Lemma keys_upd k f c : (Spec.upd k f c).*1 = c.*1.
Proof. unfold Spec.upd. induction c as [|p c IH]; [done|]. csimpl. rewrite IH. f_equal. by destruct (keqb P k p.1). Qed.
Lemma find_none_keys k c : find_key k c = None ↔ k ∉ c.*1.
Proof.
  rewrite find_key_None. split.
  - intros H ([k' v] & -> & Hin)%elem_of_list_fmap. specialize (H _ Hin). simpl in H. by rewrite (keqb_refl _ LW) in H.
  - intros H p Hin. destruct (keqb P k p.1) eqn:E; [|done]. apply ST in E as ->. destruct H. by apply elem_of_list_fmap_1.
Qed.
Definition few (ks : list K) c : Prop := NoDup c.*1 ∧ c.*1 ⊆ ks.
Lemma few_filter ks (f : K * V → bool) c : few ks c → few ks (List.filter f c).
Proof.
  intros [H1 H2]. pose proof (keys_filter f c) as Hs. split; [by eapply NoDup_sublist|].
  intros k Hk. by eapply H2, sub_elem.
Qed.
Lemma few_cons ks k v c : few ks c → k ∈ ks → find_key k c = None → few ks ((k, v) :: c).
Proof.
  intros [H1 H2] Hk Hf%find_none_keys. split; csimpl; [by constructor|]. by intros k' [->|?%H2]%elem_of_cons.
Qed.
Lemma few_upd ks k f c : few ks c → few ks (Spec.upd k f c).
Proof. unfold few. by rewrite keys_upd. Qed.
Lemma few_exec ks c (m : cmd) : few ks c → (∀ k, brings m = Some k → k ∈ ks) → few ks (map_exec c m).2.
Proof.
  intros Hc Hk. assert (few ks []) as Hn by (split; [constructor|apply list_subseteq_nil]).
  destruct m as [k|k|k|k f|k f|k|rs k v soft wl|rs k v wl|f| | | |rs k w|rs k w f|rs k g|rs k f g]; cbn [map_exec snd]; auto;
    try (by apply few_upd); try (by apply few_filter).
  - destruct (has k c); [|done]. apply few_cons; [by apply few_filter|by apply Hk|apply find_del].
  - apply few_cons; [by apply few_filter|by apply Hk|apply find_del].
  - destruct (value_of k c) eqn:E; [done|]. destruct w; [|done]. apply few_cons; [done|by apply Hk|by apply value_none].
  - destruct (value_of k c) eqn:E; [by apply few_upd|]. destruct w; [|done]. apply few_cons; [done|by apply Hk|by apply value_none].
  - destruct (value_of k c) eqn:E; [done|]. destruct g; try done. apply few_cons; [done|by apply Hk|by apply value_none].
  - destruct (value_of k c) eqn:E; [by apply few_upd|]. destruct g; try done. apply few_cons; [done|by apply Hk|by apply value_none].
Qed.
Lemma few_room cap budget W ks c k v : (∀ k v, (weight P k v ≤ W)%N) → (W ≤ budget)%N → (N.of_nat (length ks) * W ≤ cap)%N →
  few ks c → k ∈ ks → room cap budget c k v.
Proof.
  intros HW HB HC Hc Hk. split; [left; specialize (HW k v); lia|].
  assert (few ks ((k, v) :: del k c)) as [H1 H2] by (apply few_cons; [by apply few_filter|done|apply find_del]).
  pose proof (wsum_bound W ((k, v) :: del k c) HW) as Hs.
  assert (length ((k, v) :: del k c).*1 ≤ length ks)%nat as Hl.
  { apply submseteq_length, NoDup_submseteq; [done|]. intros x Hx. by apply H2. }
  rewrite fmap_length in Hl. nia.
Qed.
Lemma few_fits cap budget W ks c (m : cmd) : (∀ k v, (weight P k v ≤ W)%N) → (W ≤ budget)%N → (N.of_nat (length ks) * W ≤ cap)%N →
  few ks c → (∀ k, brings m = Some k → k ∈ ks) → fits cap budget c m.
Proof.
  intros HW HB HC Hc Hm.
  assert (∀ k v, brings m = Some k → room cap budget c k v) as HR.
  { intros k v Hk. by eapply few_room, Hm. }
  destruct m as [k|k|k|k f|k f|k|rs k v soft wl|rs k v wl|f| | | |rs k w|rs k w f|rs k g|rs k f g]; cbn [fits]; try done.
  - split; [apply (HR k v eq_refl)|]. intros _. by apply HR.
  - by apply HR.
  - destruct w; [|done]. right. by apply HR.
  - destruct w; [|done]. right. by apply HR.
  - destruct g; try done. right. by apply HR.
  - destruct g; try done. right. by apply HR.
Qed.
Lemma few_fit cap budget W ks (h : list cmd) : (∀ k v, (weight P k v ≤ W)%N) → (W ≤ budget)%N → (N.of_nat (length ks) * W ≤ cap)%N →
  (∀ m k, m ∈ h → brings m = Some k → k ∈ ks) → all_fit cap budget h.
Proof.
  intros HW HB HC Hks.
  assert (∀ h1 h2, h = h1 ++ h2 → few ks (map_after [] h1)) as Hfew.
  { induction h1 as [|m h1 IH] using rev_ind; intros h2 E; [split; [constructor|apply list_subseteq_nil]|].
    rewrite map_after_app. rewrite <-app_assoc in E. apply few_exec; [by eapply IH|]. intros k. apply Hks. rewrite E. set_solver. }
  intros h1 m h2 E. apply (few_fits cap budget W ks); try done; [by eapply Hfew|]. intros k. apply Hks. rewrite E. set_solver.
Qed.

Lemma few_secs ks g (d : sst P) : map_secs g d → (∀ x r k, (x, r) ∈ g → sec_brings x = Some k → k ∈ ks) →
  few ks (ss_items d) ∧ ∀ id k, ss_pend d id = Some k → k ∈ ks.
Proof.
  induction 1 as [|g d x r d' HM IH Hx]; intros Hk.
  { split; [|done]. split; [constructor|apply list_subseteq_nil]. }
  destruct IH as [Hf Hp]. { intros x1 r1 k Hin. eapply Hk. apply elem_of_app. by left. }
  assert (∀ k, sec_brings x = Some k → k ∈ ks) as Hk'. { intros k. eapply Hk. apply elem_of_app. right. by left. }
  pose proof (map_secs_ok _ _ HM) as (_ & Ha & _).
  clear Hk HM. destruct d as [e q n], d' as [e' q' n']. cbn [ss_items ss_pend] in *.
  destruct x as [m|k|rs id v wl|id], r as [o|v0|id0|id0|v0|]; try done; cbn [map_sec sec_brings] in *.
  - destruct Hx as (_ & _ & _ & -> & H4 & _). split; [by apply few_exec|]. intros i k. rewrite H4. destruct m; cbn [map_pend]; try apply Hp; try done.
    all: intros [H _]%pdel_some; by eapply Hp.
  - destruct Hx as (_ & -> & H & _). split; [done|]. intros i k1. rewrite H. apply Hp.
  - destruct Hx as (_ & _ & -> & H & _). split; [done|]. intros i k1. rewrite H. apply Hp.
  - destruct Hx as (_ & _ & _ & -> & H & _). split; [done|]. intros i k1. rewrite H. unfold pset. case_decide; [|apply Hp]. intros [= <-]. by apply Hk'.
  - destruct Hx as (k & H1 & _ & -> & H & _). split; [apply few_cons; [done|by eapply Hp|by eapply Ha]|].
    intros i k1. rewrite H. unfold pset. case_decide; [done|apply Hp].
  - destruct Hx as (_ & _ & -> & H & _). split; [done|]. intros i k1. rewrite H. apply Hp.
  - destruct Hx as (-> & H & _). split; [done|]. intros i k1. rewrite H. unfold pset. case_decide; [done|apply Hp].
Qed.
Lemma few_secs_fit cap budget W ks g : (∀ k v, (weight P k v ≤ W)%N) → (W ≤ budget)%N → (N.of_nat (length ks) * W ≤ cap)%N →
  (∀ x r k, (x, r) ∈ g → sec_brings x = Some k → k ∈ ks) → secs_fit cap budget g.
Proof.
  intros HW HB HC Hk g1 x r g2 d -> HM.
  destruct (few_secs ks _ _ HM) as [Hf Hp]. { intros x1 r1 k Hin. eapply Hk. apply elem_of_app. by left. }
  pose proof (map_secs_ok _ _ HM) as (_ & Ha & _).
  destruct x as [m|k|rs id v wl|id]; cbn [sec_fits]; try done.
  - apply (few_fits cap budget W ks); try done. intros k. apply (Hk (OCmd m) r). apply elem_of_app. right. by left.
  - destruct r; try done. intros k H. destruct (few_room cap budget W ks (ss_items d) k v HW HB HC Hf (Hp _ _ H)) as [H1 H2].
    rewrite del_none in H2 by (by eapply Ha). done.
Qed.
End mapproofs.
