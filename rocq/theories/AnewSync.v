(* The sync cache commutes with a shift of each of its shards. *)
From Verif Require Export AnewProofs SyncSpec.

Section anew_sync.
Context {P : Params} {B : Build}.
Context (OR : history_blind P).
Notation shard := (shard P). Notation scache := (scache P).
Implicit Types (s : shard) (c : scache) (k : K P).

(* the shift of one shard: epoch, placeholder ids, hits, misses *)
Notation shift := (nat * N * N * N)%type.
Implicit Types (d : shift) (D : list shift).
Definition shs d s : shard := sh_shard d.1.1.1 d.1.1.2 d.1.2 d.2 s.
Definition shp d p : plh := sh_plh d.1.1.2 p.
Definition shr d (r : xret P) : xret P := sh_xret d.1.1.2 r.
Definition shc D c : scache := SCache (zip_with shs D (sc_shards c)) (sc_mask c).
Definition fits D c : Prop := length D = length (sc_shards c).

Lemma shs_xexec d s x : xexec (shs d s) (shx d.1.1.2 x) = match xexec s x with Ok (s', r) => Ok (shs d s', shr d r) | Fail f => Fail f end.
Proof. apply (shf_xexec d.1.1.1 d.1.1.2 d.1.2 d.2 OR). Qed.
Lemma shc_with D c j d s : D !! j = Some d → with_shard (shc D c) j (shs d s) = shc D (with_shard c j s).
Proof.
  intros Hd. unfold with_shard, shc. simpl. f_equal. revert j Hd. generalize (sc_shards c) as l.
  induction D as [|d0 D IH]; intros l j Hd; [done|]. destruct l as [|s0 l]; [by destruct j|]. destruct j as [|j]; simpl in *.
  - by injection Hd as ->.
  - f_equal. by apply IH.
Qed.
Lemma shc_on D c j d x : fits D c → D !! j = Some d →
  on_shard (shc D c) j (shx d.1.1.2 x) = match on_shard c j x with Ok (c', r) => Ok (shc D c', shr d r) | Fail f => Fail f end.
Proof.
  intros HF Hd. unfold on_shard. destruct (lookup_lt_is_Some_2 (sc_shards c) j) as [s Hs].
  { rewrite <-HF. by eapply lookup_lt_Some. }
  unfold shc at 1. cbn [sc_shards]. rewrite lookup_zip_with, Hd, Hs. cbn [unwrap rbind mbind option_bind mret option_ret].
  rewrite shs_xexec. destruct (xexec s x) as [[s' r]|f]; [|done]. cbn [rbind]. by rewrite shc_with.
Qed.
Lemma on_shard_length c j x c' r : on_shard c j x = Ok (c', r) → length (sc_shards c') = length (sc_shards c) ∧ sc_mask c' = sc_mask c.
Proof.
  unfold on_shard. destruct (sc_shards c !! j) as [s|]; [|done]. cbn [unwrap rbind]. destruct (xexec s x) as [[s' r']|]; [|done]. cbn [rbind].
  intros [= <- <-]. simpl. by rewrite insert_length.
Qed.
Lemma shc_for D c k : fits D c → shard_for (shc D c) k = shard_for c k.
Proof.
  intros HF. unfold shard_for. assert (length (sc_shards (shc D c)) = length (sc_shards c)) as E.
  { unfold shc. simpl. rewrite zip_with_length. unfold fits in HF. lia. }
  simpl. simpl in E. by rewrite E.
Qed.
(* the shift of the shard of a key *)
Definition dk D c k : shift := default (0, 0%N, 0%N, 0%N) (D !! shard_idx (sc_mask c) k).
Lemma shc_key D c k x : fits D c →
  on_key (shc D c) k (shx (dk D c k).1.1.2 x) = match on_key c k x with Ok (c', r) => Ok (shc D c', shr (dk D c k) r) | Fail f => Fail f end ∧
  ∀ c' r, on_key c k x = Ok (c', r) → fits D c' ∧ dk D c' k = dk D c k.
Proof.
  intros HF. unfold on_key. rewrite (shc_for _ _ _ HF). unfold shard_for. case_decide as Hj; [|done]. cbn [unwrap rbind].
  destruct (lookup_lt_is_Some_2 D (shard_idx (sc_mask c) k)) as [d Hd]. { by rewrite HF. }
  assert (dk D c k = d) as -> by (unfold dk; by rewrite Hd). split.
  - by rewrite (shc_on D c _ d).
  - intros c' r [E1 E2]%on_shard_length. unfold fits, dk. by rewrite E1, E2, Hd.
Qed.
Lemma shc_cmd D c k m : fits D c →
  on_key (shc D c) k (XCmd m) = match on_key c k (XCmd m) with Ok (c', r) => Ok (shc D c', shr (dk D c k) r) | Fail f => Fail f end ∧
  ∀ c' r, on_key c k (XCmd m) = Ok (c', r) → fits D c' ∧ dk D c' k = dk D c k.
Proof. apply (shc_key D c k (XCmd m)). Qed.
Lemma shc_all D c js m : fits D c →
  on_shards (shc D c) js (XCmd m) = match on_shards c js (XCmd m) with Ok c' => Ok (shc D c') | Fail f => Fail f end ∧
  ∀ c', on_shards c js (XCmd m) = Ok c' → fits D c'.
Proof.
  revert c. induction js as [|j js IH]; intros c HF; cbn [on_shards]; [split; [done|by intros c' [= <-]]|].
  destruct (D !! j) as [d|] eqn:Hd.
  - rewrite (shc_on D c j d (XCmd m) HF Hd : on_shard (shc D c) j (XCmd m) = _).
    destruct (on_shard c j (XCmd m)) as [[c1 r]|f] eqn:E; [|done]. cbn [rbind]. apply IH. unfold fits. by destruct (on_shard_length _ _ _ _ _ E) as [-> _].
  - assert (sc_shards c !! j = None) as Hs. { apply lookup_ge_None. rewrite <-HF. by apply lookup_ge_None. }
    unfold on_shard, shc at 1. cbn [sc_shards]. by rewrite lookup_zip_with, Hd, Hs.
Qed.
Definition shv d (r : V P + plh) : V P + plh := match r with inl v => inl v | inr p => inr (shp d p) end.
Lemma shc_value D c k : fits D c →
  s_value_or_guard (shc D c) k = match s_value_or_guard c k with Ok (c', r) => Ok (shc D c', shv (dk D c k) r) | Fail f => Fail f end ∧
  ∀ c' r, s_value_or_guard c k = Ok (c', r) → fits D c' ∧ dk D c' k = dk D c k.
Proof.
  intros HF. unfold s_value_or_guard. destruct (shc_cmd D c k (CGet k) HF) as [E1 E2]. rewrite E1.
  destruct (on_key c k (XCmd (CGet k))) as [[c1 r1]|]; [|done]. cbn [rbind]. destruct (E2 _ _ eq_refl) as [F1 F2].
  destruct (shc_key D c1 k (XJoin k) F1) as [E3 E4]. change (shx (dk D c1 k).1.1.2 (XJoin k)) with (XJoin (P:=P) k) in E3.
  assert (∀ o : out P, let f := λ c, (let! (c, r) := on_key c k (XJoin k) in match r with XHit v => Ok (c, inl v) | XNew p => Ok (c, inr p) | _ => Fail NoFuel end) in
    f (shc D c1) = match f c1 with Ok (c', r) => Ok (shc D c', shv (dk D c k) r) | Fail f => Fail f end ∧
    ∀ c' r, f c1 = Ok (c', r) → fits D c' ∧ dk D c' k = dk D c k) as Hf.
  { intros o f. subst f. cbn beta. rewrite E3. destruct (on_key c1 k (XJoin k)) as [[c2 r2]|]; [|done]. cbn [rbind].
    destruct (E4 _ _ eq_refl) as [F3 F4]. rewrite F2 in *. destruct r2; cbn [shr sh_xret]; split; try done; by intros c' r [= <- <-]. }
  destruct r1 as [o|v|p|p|v|]; cbn [shr sh_xret]; try done. specialize (Hf o). destruct o as [rt ? ? ?]; destruct rt as [| |ov| | | |]; try exact Hf; try (destruct ov as [v|]; [|exact Hf]).
  split; [done|]. by intros c' r [= <- <-].
Qed.
Lemma shc_use D c k rs p g : fits D c →
  s_use_guard (shc D c) k rs (shp (dk D c k) p) g = match s_use_guard c k rs p g with Ok (c', r) => Ok (shc D c', r) | Fail f => Fail f end ∧
  ∀ c' r, s_use_guard c k rs p g = Ok (c', r) → fits D c'.
Proof.
  intros HF. destruct g as [v wl|]; cbn [s_use_guard].
  - destruct (shc_key D c k (XFill rs p false v wl) HF) as [E1 E2]. cbn [shx] in E1. unfold shp. unfold shf in E1. rewrite E1.
    destruct (on_key c k (XFill rs p false v wl)) as [[c1 r1]|]; [|done]. cbn [rbind]. destruct (E2 _ _ eq_refl) as [F1 F2].
    destruct r1; cbn [shr sh_xret]; split; try done. by intros c' r [= <- <-].
  - destruct (shc_key D c k (XDrop p) HF) as [E1 E2]. cbn [shx] in E1. unfold shp. unfold shf in E1. rewrite E1.
    destruct (on_key c k (XDrop p)) as [[c1 r1]|]; [|done]. cbn [rbind]. destruct (E2 _ _ eq_refl) as [F1 F2]. split; [done|]. by intros c' r [= <- <-].
Qed.
Lemma shc_exec D c m : fits D c →
  sc_exec (shc D c) m = match sc_exec c m with Ok (c', o) => Ok (shc D c', o) | Fail f => Fail f end ∧
  ∀ c' o, sc_exec c m = Ok (c', o) → fits D c'.
Proof.
  intros HF. destruct m as [k m|m|rs k g|rs k w]; cbn [sc_exec].
  - destruct (shc_cmd D c k m HF) as [E1 E2]. rewrite E1. destruct (on_key c k (XCmd m)) as [[c1 r1]|]; [|done]. cbn [rbind].
    destruct (E2 _ _ eq_refl) as [F1 F2]. destruct r1; cbn [shr sh_xret]; split; try done. by intros c' o' [= <- <-].
  - unfold on_all. assert (length (sc_shards (shc D c)) = length (sc_shards c)) as ->.
    { unfold shc. simpl. rewrite zip_with_length. unfold fits in HF. lia. }
    destruct (shc_all D c (seq 0 (length (sc_shards c))) m HF) as [E1 E2]. rewrite E1.
    destruct (on_shards c _ (XCmd m)) as [c1|]; [|done]. cbn [rbind]. split; [done|]. intros c' o [= <- <-]. by apply E2.
  - destruct (shc_value D c k HF) as [E1 E2]. rewrite E1. destruct (s_value_or_guard c k) as [[c1 r1]|]; [|done]. cbn [rbind].
    destruct (E2 _ _ eq_refl) as [F1 F2]. destruct r1 as [v|p]; cbn [shv]; [split; [done|by intros c' o [= <- <-]]|].
    rewrite <-F2. by apply shc_use.
  - destruct (shc_value D c k HF) as [E1 E2]. rewrite E1. destruct (s_value_or_guard c k) as [[c1 r1]|]; [|done]. cbn [rbind].
    destruct (E2 _ _ eq_refl) as [F1 F2]. destruct r1 as [v|p]; cbn [shv]; [split; [done|by intros c' o [= <- <-]]|].
    rewrite <-F2. destruct w as [v|].
    + destruct (shc_use D c1 k rs p (SInsert v false) F1) as [E3 E4]. rewrite E3. destruct (s_use_guard c1 k rs p (SInsert v false)) as [[c2 o2]|]; [|done].
      cbn [rbind]. split; [done|]. intros c' o [= <- <-]. by eapply E4.
    + destruct (shc_use D c1 k rs p SDrop F1) as [E3 E4]. rewrite E3. destruct (s_use_guard c1 k rs p SDrop) as [[c2 o2]|]; [|done].
      cbn [rbind]. split; [done|]. intros c' o [= <- <-]. by eapply E4.
Qed.
Lemma shc_run D c h : fits D c →
  sc_run (shc D c) h = match sc_run c h with Ok (c', os) => Ok (shc D c', os) | Fail f => Fail f end ∧
  ∀ c' os, sc_run c h = Ok (c', os) → fits D c'.
Proof.
  revert c. induction h as [|m h IH]; intros c HF; cbn [sc_run]; [split; [done|by intros c' os [= <- <-]]|].
  destruct (shc_exec D c m HF) as [E1 E2]. rewrite E1. destruct (sc_exec c m) as [[c1 o]|]; [|done]. cbn [rbind].
  destruct (IH c1 (E2 _ _ eq_refl)) as [E3 E4]. rewrite E3. destruct (sc_run c1 h) as [[c2 os]|]; [|done]. cbn [rbind].
  split; [done|]. intros c' os' [= <- <-]. by eapply E4.
Qed.
Lemma shc_items D c : fits D c → sc_items (shc D c) = sc_items c.
Proof.
  unfold sc_items, fits. simpl. generalize (sc_shards c) as l. induction D as [|d D IH]; intros [|s l] E; try done.
  injection E as E. cbn [zip_with fmap list_fmap concat]. f_equal; [apply (shf_iter d.1.1.1 d.1.1.2 d.1.2 d.2 s)|by apply IH].
Qed.
Lemma shc_hits D c : fits D c → foldr N.add 0%N (map sh_hits (sc_shards (shc D c))) = (foldr N.add 0 (map (λ d, d.1.2) D) + foldr N.add 0 (map sh_hits (sc_shards c)))%N.
Proof.
  unfold fits. simpl. generalize (sc_shards c) as l. induction D as [|d D IH]; intros [|s l] E; try done.
  injection E as E. cbn [zip_with map foldr]. rewrite IH by done. cbn. lia.
Qed.
Lemma shc_misses D c : fits D c → foldr N.add 0%N (map sh_misses (sc_shards (shc D c))) = (foldr N.add 0 (map snd D) + foldr N.add 0 (map sh_misses (sc_shards c)))%N.
Proof.
  unfold fits. simpl. generalize (sc_shards c) as l. induction D as [|d D IH]; intros [|s l] E; try done.
  injection E as E. cbn [zip_with map foldr]. rewrite IH by done. cbn. lia.
Qed.
(* ---- what clear leaves ---- *)
Definition cleared s : shift := (S (tepoch (sh_map s)), sh_nph s, sh_hits s, sh_misses s).
Lemma clear_shards budget ghosts cap c c' o :
  (∀ s, s ∈ sc_shards c → sh_clear s = shs (cleared s) (sh_new budget ghosts cap)) →
  sc_exec c (SAll CClear) = Ok (c', o) → sc_shards c' = map (λ s, shs (cleared s) (sh_new budget ghosts cap)) (sc_shards c) ∧ sc_mask c' = sc_mask c.
Proof.
  intros Hc. cbn [sc_exec]. unfold on_all.
  assert (∀ (l2 l1 : list shard) (m : N), on_shards (SCache (l1 ++ l2) m) (seq (length l1) (length l2)) (XCmd CClear) = Ok (SCache (l1 ++ map sh_clear l2) m)) as Hs.
  { induction l2 as [|s l2 IH]; intros l1 m; [done|]. cbn [length seq on_shards]. unfold on_shard at 1. cbn [sc_shards].
    rewrite lookup_app_r, Nat.sub_diag by lia. cbn [lookup list_lookup unwrap rbind xexec exec].
    unfold with_shard. cbn [sc_shards sc_mask]. rewrite insert_app_r_alt, Nat.sub_diag by lia. cbn [insert list_insert].
    change (sh_clear s :: l2) with ([sh_clear s] ++ l2). rewrite (assoc_L (++)).
    specialize (IH (l1 ++ [sh_clear s]) m). rewrite app_length in IH. cbn [length] in IH. rewrite Nat.add_1_r in IH. rewrite IH.
    by rewrite <-(assoc_L (++)). }
  specialize (Hs (sc_shards c) [] (sc_mask c)). destruct c as [l m]. cbn [app length sc_shards sc_mask] in *. rewrite Hs. cbn [rbind]. intros [= <- <-].
  cbn [sc_shards sc_mask]. split; [|done]. apply map_ext_in. intros s Hin. apply Hc. by apply elem_of_list_In.
Qed.
End anew_sync.
