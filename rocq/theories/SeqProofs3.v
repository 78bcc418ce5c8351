(* More consequences: absence, eviction reports, overshoot, failures. *)
From Verif Require Export SeqProofs2.

Section seq3.
Context {P : Params} (LW : Lawful P).
Notation K := (K P). Notation V := (V P). Notation RS := (RS P).
Notation shard := (shard P). Notation out := (out P). Notation cmd := (cmd P). Notation contents := (contents P).
Implicit Types (s : shard) (k : K) (v : V) (c : contents) (rs : RS) (es : list (event P)).

(* ---- absence ---- *)
Lemma does_absent cap budget c m o c' k :
  does cap budget c m o c' → creates m k = false → find_key k c = None → find_key k c' = None.
Proof.
  intros Hd Hc Hf. apply find_key_None. intros [k' v'] Hin. simpl.
  assert (∀ k0, (k0, v') ∈ c → keqb P k k0 = false) as _ by (intros; by eapply find_none).
  assert (∀ v0, (k', v0) ∈ c → keqb P k k' = false) as Hn by (intros v0 H0; by eapply find_none).
  assert (∀ rs kq kp v es rs' c1 v1, loads cap budget rs c kp v es rs' c1 → keqb P kq kp = true → keqb P k kq = false →
    (k', v1) ∈ c1 → keqb P k k' = false) as Hload.
  { intros rs kq kp v es rs' c1 v1 Hl Hkp Hkq H1. destruct (loads_origin _ _ _ _ _ _ _ _ _ _ _ Hl H1) as [(-> & _)|(v0 & H0 & _)]; [|eauto].
    rewrite (keqb_symb LW). rewrite <-(keqb_cong LW _ _ _ Hkp). by apply keqb_symf. }
  assert (∀ kq f c1, (∀ v1, (k', v1) ∈ c1 → keqb P k k' = false) → (k', v') ∈ Spec.upd kq f c1 → keqb P k k' = false) as Hupd.
  { intros kq f c1 H (v1 & H1 & _)%upd_elem. eauto. }
  assert (∀ rs kq g, guards cap budget c rs kq g o c' → 
     match g with GInsert _ _ => keqb P k kq = false | _ => True end → keqb P k k' = false) as Hg.
  { intros rs kq [v wl| |]; simpl.
    - intros (kp & es & rs' & Hkp & Hl & _) Hq. eauto.
    - intros [Hp _] _. rewrite Hp in Hin. eauto.
    - intros [Hp _] _. rewrite Hp in Hin. eauto. }
  destruct m as [kq|kq|kq|kq f|kq f|kq|rs kq v soft wl|rs kq v wl|f| | | |rs kq w|rs kq w f|rs kq g|rs kq f g]; simpl in Hd, Hc.
  1-3: destruct Hd as [Hp _]; rewrite Hp in Hin; eauto.
  1-2: destruct Hd as [Hp _]; rewrite Hp in Hin; eauto.
  - destruct Hd as [Hp _]. rewrite Hp in Hin. apply del_elem in Hin as [Hin _]. eauto.
  - destruct Hd as (es & rs' & b & Hi & _).
    destruct (inserts_origin _ _ _ _ _ _ _ _ _ _ _ _ _ Hi Hin) as [(-> & _ & ->)|(_ & v0 & H0 & _)]; [|eauto].
    inversion Hi as [| | |? ? ? ko vo ? ? ? ? Hfk| |]; subst; try done.
    apply find_key_Some in Hfk as [Hko Hkk]. destruct (keqb P k kq) eqn:E; [|done].
    rewrite <-(keqb_cong LW _ _ _ E) in Hkk. simpl in Hkk. by rewrite (find_none _ _ _ _ Hf Hko) in Hkk.
  - destruct Hd as (es & rs' & Hi & _).
    destruct (inserts_origin _ _ _ _ _ _ _ _ _ _ _ _ _ Hi Hin) as [(-> & _ & _)|(_ & v0 & H0 & _)]; [done|eauto].
  - destruct Hd as [Hp _]. rewrite Hp in Hin. apply elem_of_list_In, filter_In in Hin as [Hin%elem_of_list_In _]. eauto.
  - destruct Hd as [-> _]. by apply elem_of_nil in Hin.
  - destruct Hd as [-> _]. by apply elem_of_nil in Hin.
  - destruct Hd as [Hp _]. rewrite Hp in Hin. eauto.
  - destruct (value_of kq c) as [v0|], w as [v|].
    1,2,4: destruct Hd as [Hp _]; rewrite Hp in Hin; eauto.
    destruct Hd as (kp & es & rs' & Hkp & Hl & _). eauto.
  - destruct (value_of kq c) as [v0|], w as [v|].
    1,2,4: destruct Hd as [Hp _]; rewrite Hp in Hin; eauto.
    destruct Hd as (kp & es & rs' & c1 & Hkp & Hl & Hp & _). rewrite Hp in Hin. eapply Hupd; [|exact Hin]. eauto.
  - destruct (value_of kq c) as [v0|].
    + destruct Hd as [Hp _]; rewrite Hp in Hin; eauto.
    + eapply Hg; [done|]. by destruct g.
  - destruct (value_of kq c) as [v0|].
    + destruct Hd as [Hp _]; rewrite Hp in Hin; eauto.
    + eapply Hg; [done|]. by destruct g.
Qed.
Lemma does_erases cap budget c m o c' k : does cap budget c m o c' → erases m k c → find_key k c' = None.
Proof.
  intros Hd He. apply find_key_None. intros [k' v'] Hin. simpl.
  destruct m as [kq|kq|kq|kq f|kq f|kq|rs kq v soft wl|rs kq v wl|f| | | |rs kq w|rs kq w f|rs kq g|rs kq f g]; simpl in Hd, He; try done.
  - destruct Hd as [Hp _]. rewrite Hp in Hin. apply del_elem in Hin as [_ Hk]. by rewrite (keqb_cong LW _ _ _ He).
  - destruct Hd as [Hp _]. rewrite Hp in Hin. apply elem_of_list_In, filter_In in Hin as [Hin%elem_of_list_In Hf]. simpl in Hf.
    destruct (keqb P k k') eqn:E; [|done]. by rewrite (He _ _ Hin E) in Hf.
  - destruct Hd as [-> _]. by apply elem_of_nil in Hin.
  - destruct Hd as [-> _]. by apply elem_of_nil in Hin.
Qed.
Lemma run_absent s h s' os k : Inv s → run s h = Ok (s', os) → Forall (λ m, creates m k = false) h →
  find_key k (sh_iter s) = None → Inv s' ∧ find_key k (sh_iter s') = None.
Proof.
  revert s os. induction h as [|m h IH]; intros s os HI Hr Hall Hf; simpl in Hr.
  - by injection Hr as <- <-.
  - destruct (exec s m) as [[s1 o]|] eqn:He; [|done]. simpl in Hr.
    destruct (run s1 h) as [[s2 os2]|] eqn:Hr2; [|done]. simpl in Hr. injection Hr as <- _.
    apply Forall_cons in Hall as [Hm Hall]. pose proof (exec_step LW _ _ _ _ HI He) as Hs.
    eapply IH; [by apply Hs|done|done|]. eapply does_absent; [by apply Hs|done|done].
Qed.

(* ---- eviction reports ---- *)
Lemma inserts_explains cap budget b rs c k v es rs' c' o : ukeys c →
  inserts cap budget b rs c k v es rs' c' o → explains ((k, v) :: c) es (c' ++ from_option (λ p, [p]) [] o).
Proof.
  intros Hu H.
  assert (∀ ko vo, find_key k c = Some (ko, vo) → c ≡ₚ (ko, vo) :: del k c) as Hdel.
  { intros ko vo [Hin Hk]%find_key_Some. apply elem_of_Permutation in Hin as [c0 Hp].
    etrans; [exact Hp|]. f_equiv. symmetry. etrans; [apply (del_perm k _ _ Hp)|].
    rewrite (del_head LW); [done| |done]. by apply (ukeys_perm LW _ _ Hp). }
  inversion H as [rs1 es1 v1 c1 Ha Hf Hp|rs1 es1 v1 ko vo c1 Ha Hf Hp|rs1 es1 v1 c1 Ha Hf Hcr Hp
    |rs1 es1 v1 ko vo es2 rs2 c1 Ha Hf He Hw Hn|rs1 es1 v1 es2 rs2 c1 c2 Ha Hf Hcr He Hw Hn Hp|rs1 es1 v1 es2 rs2 c1 Ha Hf Hcr He Hw Hn]; subst;
    (eapply explains_trans || idtac); try (by eapply admission_explains).
  - destruct b; simpl.
    + eapply ex_evict; [reflexivity|]. apply ex_done. by rewrite Hp, app_nil_r.
    + apply ex_done. rewrite Hp. by rewrite <-Permutation_cons_append.
  - eapply (ex_evict _ ko vo ((k, v1) :: del k c)).
    { rewrite (Hdel _ _ Hf) at 1. by apply Permutation_swap. }
    destruct b; simpl.
    + eapply ex_evict; [reflexivity|]. apply ex_done. by rewrite Hp, app_nil_r.
    + apply ex_done. rewrite Hp. by rewrite <-Permutation_cons_append.
  - simpl. eapply explains_perm_r; [by eapply admission_explains|]. rewrite Hp. by rewrite <-Permutation_cons_append.
  - eapply (ex_evict _ ko vo ((k, v1) :: del k c)).
    { rewrite (Hdel _ _ Hf) at 1. by apply Permutation_swap. }
    simpl. rewrite app_nil_r. by eapply evicts_explains.
  - simpl. rewrite app_nil_r. eapply explains_perm_r; [|by rewrite Hp].
    pose proof (explains_frame _ _ _ [(k, v1)] (evicts_explains _ _ _ _ _ He)) as Hx.
    eapply explains_perm_l; [|eapply explains_perm_r; [exact Hx|]]; by rewrite <-Permutation_cons_append.
  - simpl. rewrite app_nil_r. by eapply evicts_explains.
Qed.
Lemma loads_explains cap budget rs c k v es rs' c' :
  loads cap budget rs c k v es rs' c' → explains ((k, v) :: c) es c'.
Proof.
  intros H.
  inversion H as [rs1 es1 v1 c1 Ha Hp|rs1 es1 v1 c1 Ha Hz Hp|rs1 es1 v1 es2 rs2 c1 Ha Hz He Hw Hn]; subst.
  - eapply explains_trans; [by eapply admission_explains|]. eapply ex_evict; [reflexivity|]. by apply ex_done.
  - eapply explains_perm_r; [by eapply admission_explains|done].
  - eapply explains_trans; [by eapply admission_explains|]. by eapply evicts_explains.
Qed.
Lemma hooks_of_reply rs es rs' wl r b : hooks_of (P:=P) (reply rs es rs' wl r b) = es.
Proof.
  unfold hooks_of, reply. simpl. rewrite omap_app.
  replace (omap _ (if wl then [] else [LEnd rs'])) with (@nil (event P)) by (by destruct wl).
  rewrite app_nil_r. induction es as [|e es IH]; [done|]. simpl. by f_equal.
Qed.
Lemma hooks_of_begin rs es r b st : hooks_of (P:=P) (Out r (LBegin rs :: (LHook <$> es)) b st) = es.
Proof. unfold hooks_of. simpl. induction es as [|e es IH]; [done|]. simpl. by f_equal. Qed.

(* the hook calls of an insert or replace, in order *)
Lemma inserts_hooks cap budget b rs c k v es rs' c' o :
  inserts cap budget b rs c k v es rs' c' o →
  ∃ offered replaced refusal es2,
    es = offered ++ replaced ++ refusal ++ es2 ∧ evictions es2 ∧
    (∀ k' v' v'', EvBefore k' v' v'' ∈ es2 → weight P k' v'' = 0%N → (k', v'') ∈ c') ∧
    offered = (if (budget <? weight P k v)%N && negb (pinned P k v) then [EvBefore k v (stored budget rs k v)] else []) ∧
    replaced = match find_key k c with Some (ko, vo) => [EvEvict ko vo] | None => [] end ∧
    ((refused budget rs k v ∧ refusal = (if b then [EvEvict k (stored budget rs k v)] else []) ∧ es2 = []) ∨
     (¬ refused budget rs k v ∧ refusal = [])).
Proof.
  intros H.
  assert (∀ rs1 es1 v1 b1, admission budget rs k v = (rs1, es1, v1, b1) →
     es1 = (if (budget <? weight P k v)%N && negb (pinned P k v) then [EvBefore k v (stored budget rs k v)] else []) ∧
     v1 = stored budget rs k v ∧ (b1 = true ↔ refused budget rs k v)) as Hadm.
  { intros rs1 es1 v1 b1 Ha. pose proof (admission_stored _ _ _ _ _ _ _ _ Ha) as ->. split; [|split; [done|by eapply admission_refused]].
    revert Ha. unfold admission, stored. destruct (_ && _); [|by intros [= <- <- <-]]. destruct (before_evict P rs k v). by intros [= <- <- <-]. }
  inversion H as [rs1 es1 v1 c1 Ha Hf Hp|rs1 es1 v1 ko vo c1 Ha Hf Hp|rs1 es1 v1 c1 Ha Hf Hcr Hp
    |rs1 es1 v1 ko vo es2 rs2 c1 Ha Hf He Hw Hn|rs1 es1 v1 es2 rs2 c1 c2 Ha Hf Hcr He Hw Hn Hp|rs1 es1 v1 es2 rs2 c1 Ha Hf Hcr He Hw Hn];
    subst; destruct (Hadm _ _ _ _ Ha) as (-> & -> & Href); rewrite Hf; clear Hadm.
  - eexists _, [], (if b then _ else _), []. split_and!; [by rewrite app_nil_r|done|by intros ??? ?%elem_of_nil|done|done|].
    left. split_and!; [by apply Href|done|done].
  - eexists _, [_], (if b then _ else _), []. split_and!; [by rewrite app_nil_r|done|by intros ??? ?%elem_of_nil|done|done|].
    left. split_and!; [by apply Href|done|done].
  - eexists _, [], [], []. split_and!; [by rewrite app_nil_r|done|by intros ??? ?%elem_of_nil|done|done|].
    right. split; [|done]. intros ?%Href. done.
  - eexists _, [_], [], es2. split_and!; [done|by eapply evicts_evictions| |done|done|].
    + intros. by eapply evicts_saved.
    + right. split; [|done]. intros ?%Href. done.
  - eexists _, [], [], es2. split_and!; [done|by eapply evicts_evictions| |done|done|].
    + intros. rewrite Hp. right. by eapply evicts_saved.
    + right. split; [|done]. intros ?%Href. done.
  - eexists _, [], [], es2. split_and!; [done|by eapply evicts_evictions| |done|done|].
    + intros. by eapply evicts_saved.
    + right. split; [|done]. intros ?%Href. done.
Qed.
Lemma loads_hooks cap budget rs c k v es rs' c' :
  loads cap budget rs c k v es rs' c' →
  ∃ offered refusal es2,
    es = offered ++ refusal ++ es2 ∧ evictions es2 ∧
    (∀ k' v' v'', EvBefore k' v' v'' ∈ es2 → weight P k' v'' = 0%N → (k', v'') ∈ c') ∧
    offered = (if (budget <? weight P k v)%N && negb (pinned P k v) then [EvBefore k v (stored budget rs k v)] else []) ∧
    ((refused budget rs k v ∧ refusal = [EvEvict k (stored budget rs k v)] ∧ es2 = []) ∨
     (¬ refused budget rs k v ∧ refusal = [])).
Proof.
  intros H.
  assert (∀ rs1 es1 v1 b1, admission budget rs k v = (rs1, es1, v1, b1) →
     es1 = (if (budget <? weight P k v)%N && negb (pinned P k v) then [EvBefore k v (stored budget rs k v)] else []) ∧
     v1 = stored budget rs k v ∧ (b1 = true ↔ refused budget rs k v)) as Hadm.
  { intros rs1 es1 v1 b1 Ha. pose proof (admission_stored _ _ _ _ _ _ _ _ Ha) as ->. split; [|split; [done|by eapply admission_refused]].
    revert Ha. unfold admission, stored. destruct (_ && _); [|by intros [= <- <- <-]]. destruct (before_evict P rs k v). by intros [= <- <- <-]. }
  inversion H as [rs1 es1 v1 c1 Ha Hp|rs1 es1 v1 c1 Ha Hz Hp|rs1 es1 v1 es2 rs2 c1 Ha Hz He Hw Hn]; subst;
    destruct (Hadm _ _ _ _ Ha) as (-> & -> & Href); clear Hadm.
  - eexists _, [_], []. split_and!; [done|done|by intros ??? ?%elem_of_nil|done|].
    left. split_and!; [by apply Href|done|done].
  - eexists _, [], []. split_and!; [by rewrite app_nil_r|done|by intros ??? ?%elem_of_nil|done|].
    right. split; [|done]. intros ?%Href. done.
  - eexists _, [], es2. split_and!; [done|by eapply evicts_evictions| |done|].
    + intros. by eapply evicts_saved.
    + right. split; [|done]. intros ?%Href. done.
Qed.
Lemma evictions_only es k v v' : evictions es → EvBefore k v v' ∈ es → pinned P k v = false ∧ weight P k v ≠ 0%N.
Proof.
  intros H Hin. remember (length es) as n eqn:Hn. assert (length es ≤ n) as Hle by lia. clear Hn. revert es H Hin Hle.
  induction n as [|n IH]; intros es H Hin Hle; destruct es as [|[k1 v1 v1'|k1 v1] es]; simpl in *; try lia; try done;
    try by apply elem_of_nil in Hin.
  destruct H as (Hp & Hw & _ & Hr). apply elem_of_cons in Hin as [[= -> -> ->]|Hin]; [done|].
  destruct (_ =? _)%N; [by apply (IH es); [..|lia]|]. destruct es as [|[k2 v2 v2'|k2 v2] es]; try done.
  destruct Hr as (-> & -> & Hr). apply elem_of_cons in Hin as [|Hin]; [done|]. simpl in Hle. by apply (IH es); [..|lia].
Qed.
End seq3.
