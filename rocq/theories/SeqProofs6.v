(* Request states, loop bounds, and the exact effect of a read. *)
From Verif Require Export SeqProofs5.

Section seq6.
Context {P : Params} (LW : Lawful P).
Notation K := (K P). Notation V := (V P). Notation RS := (RS P).
Notation shard := (shard P). Notation out := (out P). Notation cmd := (cmd P). Notation contents := (contents P).
Implicit Types (s : shard) (k : K) (v : V) (c : contents) (rs : RS) (es : list (event P)) (l : lcs P).

(* ---- request states ---- *)
Lemma threads_app rs es1 rs1 es2 rs2 : threads rs es1 rs1 → threads rs1 es2 rs2 → threads rs (es1 ++ es2) rs2.
Proof.
  revert rs. induction es1 as [|[k v v'|k v] es1 IH]; simpl; intros rs H1 H2.
  - by subst.
  - destruct H1 as (rs0 & Hb & H1). eauto.
  - eauto.
Qed.
Lemma evicts_threads rs c es rs' c' : evicts rs c es rs' c' → threads rs es rs'.
Proof. induction 1; simpl; eauto. Qed.
Lemma admission_threads (budget : N) rs k v rs1 es v1 x : admission budget rs k v = (rs1, es, v1, x) → threads rs es rs1.
Proof.
  unfold admission. destruct (_ && _).
  - destruct (before_evict P rs k v) as [rs0 v0] eqn:E. intros [= <- <- <- _]. simpl. eauto.
  - by intros [= <- <- <- _].
Qed.
Lemma inserts_threads cap budget b rs c k v es rs' c' o : inserts cap budget b rs c k v es rs' c' o → threads rs es rs'.
Proof.
  intros H.
  inversion H as [rs1 es1 v1 c1 Ha Hf Hp|rs1 es1 v1 ko vo c1 Ha Hf Hp|rs1 es1 v1 c1 Ha Hf Hcr Hp
    |rs1 es1 v1 ko vo es2 rs2 c1 Ha Hf He Hw Hn|rs1 es1 v1 es2 rs2 c1 c2 Ha Hf Hcr He Hw Hn Hp|rs1 es1 v1 es2 rs2 c1 Ha Hf Hcr He Hw Hn]; subst;
    try (eapply threads_app; [by eapply admission_threads|]).
  - by destruct b.
  - by destruct b.
  - by eapply admission_threads.
  - simpl. by eapply evicts_threads.
  - by eapply evicts_threads.
  - by eapply evicts_threads.
Qed.
Lemma loads_threads cap budget rs c k v es rs' c' : loads cap budget rs c k v es rs' c' → threads rs es rs'.
Proof.
  intros H.
  inversion H as [rs1 es1 v1 c1 Ha Hp|rs1 es1 v1 c1 Ha Hz Hp|rs1 es1 v1 es2 rs2 c1 Ha Hz He Hw Hn]; subst.
  - eapply threads_app; [by eapply admission_threads|]. done.
  - by eapply admission_threads.
  - eapply threads_app; [by eapply admission_threads|]. by eapply evicts_threads.
Qed.

(* ---- more fuel changes nothing ---- *)
Lemma hot_loop_more f f' s l i u : f ≤ f' → advance_hot_loop f s l i u ≠ Fail NoFuel →
  advance_hot_loop f' s l i u = advance_hot_loop f s l i u.
Proof.
  revert f' s l i u. induction f as [|f IH]; intros f' s l i u Hle Hn; [done|].
  destruct f' as [|f']; [lia|]. simpl in *. destruct (unwrap _) as [[e next]|]; [|done]. simpl in *.
  destruct e as [r| |]; try done. destruct (assert _); [|done]. simpl in *.
  destruct (rpinned r).
  - destruct (_ && _); [done|]. apply IH; [lia|done].
  - destruct (negb _); [|done]. apply IH; [lia|done].
Qed.
Lemma trim_more f f' s l : f ≤ f' → trim_hot f s l ≠ Fail NoFuel → trim_hot f' s l = trim_hot f s l.
Proof.
  revert f' s l. induction f as [|f IH]; intros f' s l Hle Hn; [done|].
  destruct f' as [|f']; [lia|]. simpl in *. destruct (_ <? _)%N; [|done].
  destruct (advance_hot s l) as [[[s1 l1] b]|]; [|done]. simpl in *. destruct b; [|done]. apply IH; [lia|done].
Qed.
Lemma cold_loop_more f f' s l i : f ≤ f' → advance_cold_loop f s l i ≠ Fail NoFuel →
  advance_cold_loop f' s l i = advance_cold_loop f s l i.
Proof.
  revert f' s l i. induction f as [|f IH]; intros f' s l i Hle Hn; [done|].
  destruct f' as [|f']; [lia|]. simpl in *. destruct (unwrap _) as [[e next]|]; [|done]. simpl in *.
  destruct e as [r| |]; try done. destruct (assert _); [|done]. simpl in *.
  destruct (negb _); [done|]. destruct (rpinned r); [|done]. case_bool_decide; [done|]. apply IH; [lia|done].
Qed.
Lemma evict_loop_more f f' s l x : f ≤ f' → evict_loop f s l x ≠ Fail NoFuel → evict_loop f' s l x = evict_loop f s l x.
Proof.
  revert f' s l. induction f as [|f IH]; intros f' s l Hle Hn; [done|].
  destruct f' as [|f']; [lia|]. simpl in *. destruct (wadd _ _); [|done]. simpl in *. destruct (wadd _ _); [|done]. simpl in *.
  destruct (_ <? _)%N; [|done].
  destruct (advance_cold s l) as [[[s1 l1] b]|]; [|done]. simpl in *. destruct b; [|done]. apply IH; [lia|done].
Qed.

(* ---- replace ---- *)
Lemma has_elem k c : has k c = true ↔ ∃ k' v', (k', v') ∈ c ∧ keqb P k k' = true.
Proof.
  unfold has. split.
  - destruct (find_key k c) as [[ko vo]|] eqn:Hf; [|done]. apply find_key_Some in Hf as [? ?]. eauto.
  - intros (k' & v' & Hin & Hk). by destruct (find_some _ _ _ _ Hin Hk) as (ko & vo & ->).
Qed.
Lemma inserts_replace cap budget rs c k v es rs' c' b : inserts cap budget false rs c k v es rs' c' b →
  (b = None ↔ has k c = true ∧ ¬ refused budget rs k v) ∧
  (b ≠ None → b = Some (k, stored budget rs k v) ∧ c' ≡ₚ del k c) ∧
  (∀ k0, has k0 c' = true → has k0 c = true).
Proof.
  intros H. split_and!.
  - split.
    + intros ->. split.
      * unfold has. inversion H as [rs1 es1 v1 c1 Ha Hf Hp|rs1 es1 v1 ko vo c1 Ha Hf Hp|rs1 es1 v1 c1 Ha Hf Hcr Hp
          |rs1 es1 v1 ko vo es2 rs2 c1 Ha Hf He Hw Hn|rs1 es1 v1 es2 rs2 c1 c2 Ha Hf Hcr He Hw Hn Hp|rs1 es1 v1 es2 rs2 c1 Ha Hf Hcr He Hw Hn];
          subst; try done. by rewrite Hf.
      * intros Hr. by destruct (inserts_refused _ _ _ _ _ _ _ _ _ _ _ H Hr) as [_ ?].
    + intros [Hh Hr].
      inversion H as [rs1 es1 v1 c1 Ha Hf Hp|rs1 es1 v1 ko vo c1 Ha Hf Hp|rs1 es1 v1 c1 Ha Hf Hcr Hp
          |rs1 es1 v1 ko vo es2 rs2 c1 Ha Hf He Hw Hn|rs1 es1 v1 es2 rs2 c1 c2 Ha Hf Hcr He Hw Hn Hp|rs1 es1 v1 es2 rs2 c1 Ha Hf Hcr He Hw Hn];
          subst; try done; unfold has in Hh; try (by rewrite Hf in Hh).
      exfalso. apply Hr. by eapply admission_refused.
  - intros Hb.
    inversion H as [rs1 es1 v1 c1 Ha Hf Hp|rs1 es1 v1 ko vo c1 Ha Hf Hp|rs1 es1 v1 c1 Ha Hf Hcr Hp
          |rs1 es1 v1 ko vo es2 rs2 c1 Ha Hf He Hw Hn|rs1 es1 v1 es2 rs2 c1 c2 Ha Hf Hcr He Hw Hn Hp|rs1 es1 v1 es2 rs2 c1 Ha Hf Hcr He Hw Hn];
          subst; try done; rewrite (admission_stored _ _ _ _ _ _ _ _ Ha); (split; [done|]); try done; by rewrite (del_none _ _ Hf).
  - intros k0 (k' & v' & Hin & Hk)%has_elem.
    destruct (inserts_origin _ _ _ _ _ _ _ _ _ _ _ _ _ H Hin) as [(-> & _ & ->)|(_ & v0 & Hin0 & _)].
    + inversion H as [rs1 es1 v1 c1 Ha Hf Hp|rs1 es1 v1 ko vo c1 Ha Hf Hp|rs1 es1 v1 c1 Ha Hf Hcr Hp
          |rs1 es1 v1 ko vo es2 rs2 c1 Ha Hf He Hw Hn|rs1 es1 v1 es2 rs2 c1 c2 Ha Hf Hcr He Hw Hn Hp|rs1 es1 v1 es2 rs2 c1 Ha Hf Hcr He Hw Hn];
          subst; try done. unfold has. by rewrite (find_key_cong LW k0 k c Hk), Hf.
    + apply has_elem. eauto.
Qed.

(* ---- a counted ---- *)
Lemma get_effect s k s' o : sh_get s (hash P k) k = Ok (s', o) → Inv s →
  match o with
  | None => s' = record_miss s
  | Some v => ∃ t r, its_of s !! t = Some (Some (Resident r)) ∧ keqb P k (r_key r) = true ∧ r_val r = v ∧
      s' = record_hit (set_entry s t (Resident (Res (r_key r) (r_val r) (r_state r) (if (r_ref r <? 2)%N then r_ref r + 1 else r_ref r)%N)))
  end.
Proof.
  intros H HI. unfold sh_get in H. destruct (search_resident_spec LW s k HI) as ([[t r]|] & Hs & Ho); rewrite Hs in H; simpl in H.
  - injection H as <- <-. destruct Ho as (Ht & Hk & _). exists t, r. split_and!; try done.
    unfold MAX_F. destruct (r_ref r <? 2)%N; by destruct r.
  - by injection H as <- <-.
Qed.
Lemma bracketed_reply rs es rs' wl r b : threads rs es rs' → bracketed (P:=P) rs wl (reply rs es rs' wl r b).
Proof. intros H. exists rs'. rewrite hooks_of_reply. by split_and!. Qed.

(* ---- statistics of a history ---- *)
Lemma history_stats budget ghosts cap h os s : history budget ghosts cap h os s →
  (sh_hits s + sh_misses s = N.of_nat (length (List.filter counted h)))%N.
Proof.
  intros H. eapply (history_ind LW budget ghosts cap (λ h os s, (sh_hits s + sh_misses s = N.of_nat (length (List.filter counted h)))%N)); [done| |exact H].
  intros h0 os0 s0 m o s' H0 HI Hc IH He Hs Hd. rewrite List.filter_app, app_length.
  pose proof (st_stats _ _ _ _ Hs) as Hst. unfold counts in Hst.
  assert (∀ b, stats s' = tick b (stats s0) → counted m = true → (sh_hits s' + sh_misses s' = N.of_nat (length (List.filter counted h0) + length (List.filter counted [m])))%N) as Hx.
  { intros b Hb Hm. simpl. rewrite Hm. unfold stats, tick in Hb. destruct b; injection Hb as -> ->; simpl; lia. }
  assert (stats s' = stats s0 → counted m = false → (sh_hits s' + sh_misses s' = N.of_nat (length (List.filter counted h0) + length (List.filter counted [m])))%N) as Hy.
  { intros Hb Hm. simpl. rewrite Hm. unfold stats in Hb. injection Hb as -> ->; simpl; lia. }
  destruct m; first [by apply Hy|by eapply Hx|destruct Hst as (b & Hb & _); by eapply Hx].
Qed.
(* ---- ghosts ---- *)
Lemma history_ghosts budget ghosts cap h os s : history budget ghosts cap h os s →
  (N.of_nat (length (remembered s)) ≤ ghosts)%N.
Proof.
  intros H. destruct (history_inv LW _ _ _ _ _ _ H) as [(rs & fl & HI) Hc]. unfold cfg in Hc. injection Hc as _ _ <-.
  pose proof (i_ghost _ _ _ HI) as Hg. rewrite (acc_g _ _ (i_acc _ _ _ HI)) in Hg.
  etrans; [|exact Hg]. clear. apply N.eq_le_incl. unfold remembered. rewrite slab_iter_items. fold (its_of s).
  induction (its_of s) as [|o l IH]; [done|]. unfold esum in *.
  destruct o as [[r|p|h]|]; csimpl; cbn [List.filter length]; rewrite <-?IH; unfold ghn; lia.
Qed.
Lemma storage_slots s : storage s = slots s.
Proof. unfold storage, slots, its_of, items. by rewrite map_length. Qed.
End seq6.

(* ---- abandoned loads are never reclaimed ---- *)
Definition all_leaked {P} (n : nat) (s : shard P) : Prop :=
  tpairs (sh_map s) = [] ∧ length (ents (sh_ents s)) = n ∧ next_free (sh_ents s) = n.
Lemma leak_step {P} (LW : Lawful P) rs k n (s : shard P) : all_leaked n s → (N.of_nat n + 2 < two32)%N →
  ∃ s', exec s (CRefOrGuard rs k GDrop) = Ok (s', plain RGuard) ∧ all_leaked (S n) s'.
Proof.
  intros (Hm & Hl & Hn) H32. simpl. unfold u_ref_or_guard, upsert_placeholder, search.
  assert (probe P (sh_map s) (hash P k) = []) as ->.
  { destruct (probe P (sh_map s) (hash P k)) as [|t l] eqn:E; [done|]. exfalso.
    assert (t ∈ (tpairs (sh_map s)).*2) as Ht by (eapply (probe_sound _ LW); rewrite E; by left). rewrite Hm in Ht. by apply elem_of_nil in Ht. }
  simpl. unfold slab_insert. simpl. rewrite Hn. rewrite (proj2 (lookup_ge_None (ents (sh_ents s)) n)) by lia. rewrite Hl, bool_decide_true by done. simpl.
  replace (N.of_nat n + 2 =? two32)%N with false by (symmetry; apply N.eqb_neq; lia). simpl. rewrite bool_decide_true by done. simpl.
  unfold map_insert, tinsert. simpl. rewrite Hm. 
  replace (if grows P (sh_map s) then _ else _) with (Ok (A:=list (N * nat)) []) by (by destruct (grows P (sh_map s))). simpl.
  unfold remove_placeholder, tfind. simpl.
  set (T := Table [(hash P k, n)] (S (tepoch (sh_map s)))).
  assert (∃ l, probe P T (hash P k) = n :: l) as [l ->].
  { destruct (probe P T (hash P k)) as [|t l] eqn:E.
    - assert (n ∈ probe P T (hash P k)) as Hin by (apply (probe_complete _ LW); by left). rewrite E in Hin. by apply elem_of_nil in Hin.
    - assert (t ∈ (tpairs T).*2) as Ht by (eapply (probe_sound _ LW); rewrite E; by left).
      apply elem_of_list_singleton in Ht as ->. eauto. }
  simpl. rewrite bool_decide_false by (by intros []). unfold entry_at, slab_get. simpl. rewrite lookup_app_r by lia. rewrite Hl, Nat.sub_diag. simpl.
  assert (same_as (P:=P) (Plh (hash P k) n (sh_nph s)) (Plh (hash P k) n (sh_nph s)) = true) as ->.
  { unfold same_as. destruct (ptr_ids P); [by apply bool_decide_eq_true|done]. }
  simpl. eexists. split; [done|]. split_and!; simpl; [|rewrite app_length; simpl; lia|done].
  unfold tremove. simpl. rewrite filter_cons_False; [done|]. simpl. intros []; done.
Qed.
Lemma leak_run {P} (LW : Lawful P) rs k budget ghosts cap n : (N.of_nat n + 2 < two32)%N →
  ∃ s os, history (P:=P) budget ghosts cap (replicate n (CRefOrGuard rs k GDrop)) os s ∧ all_leaked n s.
Proof.
  induction n as [|n IH]; intros H32.
  - eexists _, _. split; [done|]. done.
  - destruct IH as (s & os & H & Hl); [lia|]. destruct (leak_step LW rs k n s Hl) as (s' & He & Hl'); [lia|].
    exists s', (os ++ [plain RGuard]). split; [|done]. rewrite replicate_S_end. apply run_snoc. by exists s, os, (plain RGuard).
Qed.
