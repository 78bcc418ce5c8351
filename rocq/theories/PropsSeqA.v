(* Properties C01 to C10 of the unsync cache: the theorems, and executions that meet their
   hypotheses. The vocabulary is in Spec.v, ApiSpec.v and PropSpec.v; the concrete instances
   U, W and H are in Demo.v. *)
From Verif Require Import Reach SeqProofs SeqProofs2 SeqProofs3 SeqProofs4 SeqProofs5 Demo.

(* the mixed history of Demo.v runs *)
Example mixed_runs : history 10 3 14 mixed (outs_of 10 3 14 mixed) (state_of 10 3 14 mixed).
Proof. vm_compute. reflexivity. Qed.
Example plain_runs : history 10 3 14 plainh (outs_of 10 3 14 plainh) (state_of 10 3 14 plainh).
Proof. vm_compute. reflexivity. Qed.
Lemma plain_no_growth : Forall no_growth plainh.
Proof. repeat (apply Forall_cons; split; [try done; intros k v _; simpl; lia|]). apply Forall_nil. done. Qed.

(* ---- C01 ---- *)
(* Without pinning, and when in-place changes never raise a weight, weight() is at most
   capacity() after every history. *)
Theorem C01_weight_within_capacity : ∀ (P : Params), Lawful P → ∀ budget ghosts cap (h : list (cmd P)) os s,
  (budget ≤ cap)%N → (cap < two64)%N → (∀ k v, pinned P k v = false) → Forall no_growth h →
  history budget ghosts cap h os s →
  sh_capacity s = cap ∧ ∃ w, sh_weight s = Ok w ∧ (w ≤ cap)%N.
Proof.
  intros P LW budget ghosts cap h os s Hb Hc Hp Hg H. destruct (history_inv LW _ _ _ _ _ _ H) as [HI Hcfg].
  pose proof (history_wsum LW _ _ _ _ _ _ Hb Hp Hg H) as Hw. unfold cfg in Hcfg. injection Hcfg as _ Hcap _.
  split; [done|]. exists (wsum (sh_iter s)). split; [|done]. rewrite (weight_exact s HI).
  destruct (N.ltb_spec (wsum (sh_iter s)) two64); [done|lia].
Qed.
Print Assumptions C01_weight_within_capacity.
Example C01_example : ∃ w, sh_weight (state_of 10 3 14 plainh) = Ok w ∧ (w ≤ 14)%N ∧
  length (sh_iter (state_of 10 3 14 plainh)) = 2.
Proof.
  destruct (C01_weight_within_capacity W lawW 10 3 14 plainh _ _ ltac:(done) ltac:(done) ltac:(done) plain_no_growth plain_runs) as (_ & w & Hw & Hle).
  exists w. split; [done|]. split; [done|]. vm_compute. reflexivity.
Qed.

(* ---- C02 ---- *)
(* With arbitrary pinning, the items that are not pinned weigh at most capacity(). *)
Theorem C02_unpinned_weight_within_capacity : ∀ (P : Params), Lawful P → ∀ budget ghosts cap (h : list (cmd P)) os s,
  (budget ≤ cap)%N → Forall no_growth_unpin h → history budget ghosts cap h os s →
  (uwsum (sh_iter s) ≤ cap)%N.
Proof. intros P LW budget ghosts cap h os s Hb Hg H. by eapply (history_uwsum LW). Qed.
Print Assumptions C02_unpinned_weight_within_capacity.
Example C02_example : (uwsum (sh_iter (state_of 10 3 14 mixed)) ≤ 14)%N ∧
  (∃ v, (100%N, v) ∈ sh_iter (state_of 10 3 14 mixed)).
Proof.
  split.
  - eapply (C02_unpinned_weight_within_capacity H lawH 10 3 14 mixed); [done| |exact mixed_runs].
    unfold mixed. repeat (apply Forall_cons; split; [first [exact I|intros k v _; split; [cbn; lia|by intros]]|]). by apply Forall_nil.
  - exists 5%N. vm_compute. do 2 right. left.
Qed.

(* ---- C03 ---- *)
(* An insert that admits its value repairs an overshoot, whatever the state: afterwards the
   cache fits, or everything with weight is pinned or is the value just written. *)
Theorem C03_insert_repairs_overshoot : ∀ (P : Params), Lawful P → ∀ budget ghosts cap (h : list (cmd P)) os s rs k v wl s' o,
  history budget ghosts cap h os s → exec s (CInsert rs k v wl) = Ok (s', o) → ¬ refused budget rs k v →
  (wsum (sh_iter s') ≤ cap)%N ∨
  ∀ k' v', (k', v') ∈ sh_iter s' → weight P k' v' ≠ 0%N → pinned P k' v' = true ∨ (k' = k ∧ v' = stored budget rs k v).
Proof.
  intros P LW budget ghosts cap h os s rs k v wl s' o H He Hr. destruct (history_step LW _ _ _ _ _ _ _ _ _ H He) as (_ & _ & Hd).
  destruct Hd as (es & rs' & Hi & _). by eapply inserts_repairs.
Qed.
Print Assumptions C03_insert_repairs_overshoot.
(* the same for replace, when it returns Ok *)
Theorem C03_replace_repairs_overshoot : ∀ (P : Params), Lawful P → ∀ budget ghosts cap (h : list (cmd P)) os s rs k v soft wl s' o,
  history budget ghosts cap h os s → exec s (CReplace rs k v soft wl) = Ok (s', o) → o_ret o = RPair None →
  (wsum (sh_iter s') ≤ cap)%N ∨
  ∀ k' v', (k', v') ∈ sh_iter s' → weight P k' v' ≠ 0%N → pinned P k' v' = true.
Proof.
  intros P LW budget ghosts cap h os s rs k v soft wl s' o H He Hr. destruct (history_step LW _ _ _ _ _ _ _ _ _ H He) as (_ & _ & Hd).
  destruct Hd as (es & rs' & [kv|] & Hi & ->); [done|]. inversion Hi; subst; try done.
Qed.
Print Assumptions C03_replace_repairs_overshoot.
(* and for guard.insert of a value that has weight *)
Theorem C03_guard_insert_repairs_overshoot : ∀ (P : Params), Lawful P → ∀ budget ghosts cap (h : list (cmd P)) os s rs k v wl s' o,
  history budget ghosts cap h os s → exec s (CRefOrGuard rs k (GInsert v wl)) = Ok (s', o) → o_ret o = RGuard →
  (∀ kp, keqb P k kp = true → ¬ refused budget rs kp v ∧ weight P kp (stored budget rs kp v) ≠ 0%N) →
  (wsum (sh_iter s') ≤ cap)%N ∨
  ∀ k' v', (k', v') ∈ sh_iter s' → weight P k' v' ≠ 0%N → pinned P k' v' = true.
Proof.
  intros P LW budget ghosts cap h os s rs k v wl s' o H He Hr Hk. destruct (history_step LW _ _ _ _ _ _ _ _ _ H He) as (_ & _ & Hd).
  simpl in Hd. destruct (value_of k (sh_iter s)); [destruct Hd as [_ ->]; done|].
  destruct Hd as (kp & es & rs' & Hkp & Hl & _). destruct (Hk kp Hkp) as [H1 H2].
  inversion Hl as [rs1 es1 v1 c1 Ha Hp|rs1 es1 v1 c1 Ha Hz Hp|rs1 es1 v1 es2 rs2 c1 Ha Hz Hev Hw Hn]; subst; try done.
  - destruct H1. by eapply admission_refused.
  - by rewrite (admission_stored _ _ _ _ _ _ _ _ Ha) in Hz.
Qed.
Print Assumptions C03_guard_insert_repairs_overshoot.
(* an in-place change pushed the cache from 9 to 29 (capacity 14); the next insert repairs it *)
Example C03_example :
  let s := state_of 10 3 14 [ins (P:=W) 0 1 4; ins (P:=W) 0 2 5; CGetMut (P:=W) 1 (λ v, v + 20)]%N in
  wsum (sh_iter s) = 29%N ∧
  match exec s (ins (P:=W) 0 3 2)%N with Ok (s', _) => wsum (sh_iter s') = 2%N | Fail _ => False end.
Proof. vm_compute. done. Qed.

(* ---- C04 ---- *)
(* len(), weight() and is_empty() are exact. weight() itself overflows exactly when the sum
   does not fit 64 bits. *)
Theorem C04_len_weight_exact : ∀ (P : Params), Lawful P → ∀ budget ghosts cap (h : list (cmd P)) os s,
  history budget ghosts cap h os s →
  sh_len s = N.of_nat (length (sh_iter s)) ∧
  sh_weight s = (if (wsum (sh_iter s) <? two64)%N then Ok (wsum (sh_iter s)) else Fail WeightOvf) ∧
  (sh_len s = 0%N ↔ sh_iter s = []).
Proof.
  intros P LW budget ghosts cap h os s H. destruct (history_inv LW _ _ _ _ _ _ H) as [HI _].
  rewrite (len_exact s HI), (weight_exact s HI). split_and!; try done. destruct (sh_iter s); simpl; split; naive_solver lia.
Qed.
Print Assumptions C04_len_weight_exact.
Example C04_example : sh_len (state_of 10 3 14 mixed) = 3%N ∧ sh_weight (state_of 10 3 14 mixed) = Ok 10%N.
Proof. vm_compute. done. Qed.

(* ---- C05 ---- *)
(* What get, peek or iter yields for k came from the last write to k. *)
Theorem C05_hit_is_last_write : ∀ (P : Params), Lawful P → ∀ budget ghosts cap (h : list (cmd P)) os s k v,
  history budget ghosts cap h os s →
  u_peek s k = Ok (Some v) ∨ (∃ s', u_get s k = Ok (s', Some v)) ∨ (k, v) ∈ sh_iter s →
  came_from (past h os) k v.
Proof.
  intros P LW budget ghosts cap h os s k v H Hk. destruct (history_inv LW _ _ _ _ _ _ H) as [HI _].
  assert (value_of k (sh_iter s) = Some v ∨ (k, v) ∈ sh_iter s) as [Hv|Hin].
  { destruct Hk as [Hk|[[s' Hk]|Hk]]; [left..|by right].
    - unfold u_peek in Hk. rewrite (sh_peek_spec LW s k HI) in Hk. by injection Hk.
    - unfold u_get in Hk. destruct (sh_get_spec LW s k HI) as (s2 & E & _). rewrite E in Hk. by injection Hk. }
  - apply (value_in LW) in Hv as (k' & Hin & Hk'); [|by apply (inv_ukeys LW)].
    eapply (came_from_cong LW); [exact (history_sourced LW _ _ _ _ _ _ H _ _ Hin)|]. by apply (keqb_sym _ LW).
  - exact (history_sourced LW _ _ _ _ _ _ H _ _ Hin).
Qed.
Print Assumptions C05_hit_is_last_write.
(* With hooks that leave values alone (and retain predicates that treat equal keys alike) it
   is the last value written, and k was not erased since. *)
Theorem C05_hit_is_last_write_default : ∀ (P : Params), Lawful P → ∀ budget ghosts cap (h : list (cmd P)) os s k v,
  (∀ rs k v, (before_evict P rs k v).2 = v) →
  (∀ f, CRetain f ∈ h → ∀ a b w, keqb P a b = true → f a w = f b w) →
  history budget ghosts cap h os s → u_peek s k = Ok (Some v) →
  last_value (past h os) k = Some v.
Proof.
  intros P LW budget ghosts cap h os s k v Hid Hf H Hk. apply came_from_last; [done| |].
  - intros f Hin. apply Hf. clear -Hin. revert os Hin. induction h as [|m h IH]; intros [|o os] Hin; simpl in Hin; try by apply elem_of_nil in Hin.
    apply elem_of_app in Hin as [Hin|Hin]; [|right; by eapply IH].
    destruct m as [kq|kq|kq|kq g|kq g|kq|rs kq v soft wl|rs kq v wl|g| | | |rs kq w|rs kq w g|rs kq g|rs kq g g2]; simpl in Hin;
      repeat match type of Hin with
      | context [match ?x with _ => _ end] => destruct x
      | context [if ?x then _ else _] => destruct x
      end; simpl in Hin; rewrite ?elem_of_app, ?elem_of_cons, ?elem_of_nil in Hin; try by intuition.
    destruct Hin as [[= ->]|[]]. by left.
  - eapply C05_hit_is_last_write; [exact LW|exact H|by left].
Qed.
Print Assumptions C05_hit_is_last_write_default.
(* key 2 was written (4), changed in place (to 3), and is still there *)
Example C05_example : u_peek (state_of 10 3 14 (take 5 plainh)) 2%N = Ok (Some 3%N) ∧
  last_value (past (take 5 plainh) (outs_of 10 3 14 (take 5 plainh))) 2%N = Some 3%N.
Proof. vm_compute. done. Qed.

(* ---- C06 ---- *)
(* Once erased, a key stays absent until some call writes it. *)
Theorem C06_no_resurrection : ∀ (P : Params), Lawful P → ∀ budget ghosts cap (h1 : list (cmd P)) os1 s1 m s2 o h2 s3 os2 k,
  history budget ghosts cap h1 os1 s1 → exec s1 m = Ok (s2, o) → erases m k (sh_iter s1) →
  run s2 h2 = Ok (s3, os2) → Forall (λ m, creates m k = false) h2 →
  u_peek s3 k = Ok None ∧ u_contains s3 k = Ok false ∧ ∀ k' v', (k', v') ∈ sh_iter s3 → keqb P k k' = false.
Proof.
  intros P LW budget ghosts cap h1 os1 s1 m s2 o h2 s3 os2 k H He Her Hr Hc.
  destruct (history_step LW _ _ _ _ _ _ _ _ _ H He) as (Hs & HI & Hd).
  pose proof (does_erases LW _ _ _ _ _ _ _ Hd Her) as Hf.
  destruct (run_absent LW _ _ _ _ _ (st_inv _ _ _ _ Hs) Hr Hc Hf) as [HI3 Hf3].
  unfold u_peek, u_contains. rewrite (sh_peek_spec LW s3 k HI3), (sh_contains_spec LW s3 k HI3). unfold value_of, has. rewrite Hf3.
  split_and!; try done. intros k' v' Hin. exact (SeqProofs2.find_none _ _ _ _ Hf3 Hin).
Qed.
Print Assumptions C06_no_resurrection.
Example C06_example :
  let s := state_of 10 3 14 (mixed ++ [CRemove (P:=H) 11])%N in
  u_peek (state_of 10 3 14 mixed) 11%N = Ok (Some 5%N) ∧
  match run s [ins (P:=H) 0 12 3; CGetMut (P:=H) 11 (λ v, v + 1); CReplace (P:=H) 0 11 4 false false; CReserve (P:=H)]%N with
  | Ok (s3, _) => u_peek s3 11%N = Ok None | Fail _ => False end.
Proof. vm_compute. done. Qed.

(* ---- C07 ---- *)
(* iter() yields no two equal keys, and every lookup agrees with it. *)
Theorem C07_unique_keys : ∀ (P : Params), Lawful P → ∀ budget ghosts cap (h : list (cmd P)) os s,
  history budget ghosts cap h os s →
  ∀ i j p q, sh_iter s !! i = Some p → sh_iter s !! j = Some q → keqb P p.1 q.1 = true → i = j.
Proof.
  intros P LW budget ghosts cap h os s H. destruct (history_inv LW _ _ _ _ _ _ H) as [HI _]. intros i j p q.
  apply (ukeys_lookup LW). by apply (inv_ukeys LW).
Qed.
Print Assumptions C07_unique_keys.
Theorem C07_lookups_agree : ∀ (P : Params), Lawful P → ∀ budget ghosts cap (h : list (cmd P)) os s k,
  history budget ghosts cap h os s →
  ∃ r, u_peek s k = Ok r ∧
       (∀ v, r = Some v ↔ ∃ k', (k', v) ∈ sh_iter s ∧ keqb P k k' = true) ∧
       u_contains s k = Ok (bool_decide (is_Some r)) ∧
       (∃ s', u_get s k = Ok (s', r)) ∧
       (∀ s' o f, exec s (CGetMut k f) = Ok (s', o) → o_ret o = RVal r) ∧
       (∀ s' o f, exec s (CPeekMut k f) = Ok (s', o) → o_ret o = RVal r).
Proof.
  intros P LW budget ghosts cap h os s k H. destruct (history_inv LW _ _ _ _ _ _ H) as [HI _].
  exists (value_of k (sh_iter s)). unfold u_peek, u_contains, u_get.
  rewrite (sh_peek_spec LW s k HI), (sh_contains_spec LW s k HI). split_and!; try done.
  - intros v. apply (value_in LW). by apply (inv_ukeys LW).
  - unfold has, value_of. by destruct (find_key k (sh_iter s)) as [[??]|].
  - destruct (sh_get_spec LW s k HI) as (s2 & E & _). eauto.
  - intros s' o f He. destruct (history_step LW _ _ _ _ _ _ _ _ _ H He) as (_ & _ & Hd). by destruct Hd as [_ ->].
  - intros s' o f He. destruct (history_step LW _ _ _ _ _ _ _ _ _ H He) as (_ & _ & Hd). by destruct Hd as [_ ->].
Qed.
Print Assumptions C07_lookups_agree.
Example C07_example : sh_iter (state_of 10 3 14 mixed) = [(3, 0); (11, 5); (100, 5)]%N ∧
  u_peek (state_of 10 3 14 mixed) 11%N = Ok (Some 5%N) ∧ u_peek (state_of 10 3 14 mixed) 7%N = Ok None.
Proof. vm_compute. done. Qed.

(* ---- C08 ---- *)
(* In every request, what was cached or offered is cached, reported to on_evict, or handed
   back; values change only by before_evict. Calls that make no request call no hook. *)
Theorem C08_insert_conserves : ∀ (P : Params), Lawful P → ∀ budget ghosts cap (h : list (cmd P)) os s rs k v wl s' o,
  history budget ghosts cap h os s → exec s (CInsert rs k v wl) = Ok (s', o) →
  explains ((k, v) :: sh_iter s) (hooks_of o) (sh_iter s').
Proof.
  intros P LW budget ghosts cap h os s rs k v wl s' o H He. destruct (history_step LW _ _ _ _ _ _ _ _ _ H He) as (_ & HI & Hd).
  destruct Hd as (es & rs' & Hi & ->). rewrite hooks_of_reply. rewrite <-(app_nil_r (sh_iter s')).
  exact (inserts_explains LW _ _ _ _ _ _ _ _ _ _ _ (inv_ukeys LW s HI) Hi).
Qed.
Print Assumptions C08_insert_conserves.
Theorem C08_replace_conserves : ∀ (P : Params), Lawful P → ∀ budget ghosts cap (h : list (cmd P)) os s rs k v soft wl s' o,
  history budget ghosts cap h os s → exec s (CReplace rs k v soft wl) = Ok (s', o) →
  ∃ back, o_ret o = RPair back ∧
    explains ((k, v) :: sh_iter s) (hooks_of o) (sh_iter s' ++ match back with Some p => [p] | None => [] end).
Proof.
  intros P LW budget ghosts cap h os s rs k v soft wl s' o H He. destruct (history_step LW _ _ _ _ _ _ _ _ _ H He) as (_ & HI & Hd).
  destruct Hd as (es & rs' & b & Hi & ->). exists b.
  pose proof (inserts_explains LW _ _ _ _ _ _ _ _ _ _ _ (inv_ukeys LW s HI) Hi) as Hx.
  destruct b; (split; [done|]); [rewrite hooks_of_begin|rewrite hooks_of_reply]; exact Hx.
Qed.
Print Assumptions C08_replace_conserves.
(* get_or_insert_with whose closure succeeded, and guard.insert; the pending load may have been
   started with another, equal key *)
Theorem C08_load_conserves : ∀ (P : Params), Lawful P → ∀ budget ghosts cap (h : list (cmd P)) os s m k v s' o,
  history budget ghosts cap h os s → exec s m = Ok (s', o) → value_of k (sh_iter s) = None →
  (∃ rs, m = CGetOrInsert rs k (Some v)) ∨ (∃ rs wl, m = CRefOrGuard rs k (GInsert v wl)) ∨
  (∃ rs f wl, m = CMutOrGuard rs k f (GInsert v wl)) →
  ∃ kp, keqb P k kp = true ∧ explains ((kp, v) :: sh_iter s) (hooks_of o) (sh_iter s').
Proof.
  intros P LW budget ghosts cap h os s m k v s' o H He Hn Hm. destruct (history_step LW _ _ _ _ _ _ _ _ _ H He) as (_ & HI & Hd).
  destruct Hm as [[rs ->]|[(rs & wl & ->)|(rs & f & wl & ->)]]; simpl in Hd; rewrite Hn in Hd; simpl in Hd;
    destruct Hd as (kp & es & rs' & Hk & Hl & ->); exists kp; (split; [done|]); rewrite hooks_of_reply; by eapply loads_explains.
Qed.
Print Assumptions C08_load_conserves.
(* every other call is silent, and so are these when they find the key *)
Theorem C08_no_other_reports : ∀ (P : Params), Lawful P → ∀ budget ghosts cap (h : list (cmd P)) os s m s' o,
  history budget ghosts cap h os s → exec s m = Ok (s', o) →
  match written m with
  | None => True
  | Some (k, _) => match m with CInsert _ _ _ _ | CReplace _ _ _ _ _ => False | _ => value_of k (sh_iter s) ≠ None end
  end → o_log o = [].
Proof.
  intros P LW budget ghosts cap h os s m s' o H He Hm. destruct (history_step LW _ _ _ _ _ _ _ _ _ H He) as (_ & HI & Hd).
  destruct m as [kq|kq|kq|kq g|kq g|kq|rs kq v soft wl|rs kq v wl|g| | | |rs kq w|rs kq w g|rs kq g|rs kq g g2]; simpl in Hd, Hm; try done;
    try (by destruct Hd as [_ ->]).
  - destruct Hd as (_ & l & _ & ->). done.
  - destruct (value_of kq (sh_iter s)) eqn:E, w; try (by destruct Hd as [_ ->]). by destruct (Hm E).
  - destruct (value_of kq (sh_iter s)) eqn:E, w; try (by destruct Hd as [_ ->]). by destruct (Hm E).
  - destruct (value_of kq (sh_iter s)) eqn:E, g; try (by destruct Hd as [_ ->]). by destruct (Hm E).
  - destruct (value_of kq (sh_iter s)) eqn:E, g2; try (by destruct Hd as [_ ->]). by destruct (Hm E).
Qed.
Print Assumptions C08_no_other_reports.
(* With hooks that leave values alone this is conservation of items: cached before and offered
   = cached after + reported. *)
Theorem C08_insert_conserves_default : ∀ (P : Params), Lawful P → ∀ budget ghosts cap (h : list (cmd P)) os s rs k v wl s' o,
  (∀ rs k v, (before_evict P rs k v).2 = v) →
  history budget ghosts cap h os s → exec s (CInsert rs k v wl) = Ok (s', o) →
  (k, v) :: sh_iter s ≡ₚ sh_iter s' ++ evicted (hooks_of o).
Proof.
  intros P LW budget ghosts cap h os s rs k v wl s' o Hid H He.
  pose proof (C08_insert_conserves P LW _ _ _ _ _ _ _ _ _ _ _ _ H He) as Hx.
  eapply explains_conserve; [done|exact Hx|].
  destruct (history_step LW _ _ _ _ _ _ _ _ _ H He) as (_ & HI & Hd). destruct Hd as (es & rs' & Hi & ->). rewrite hooks_of_reply.
  by eapply inserts_real.
Qed.
Print Assumptions C08_insert_conserves_default.
Example C08_example :
  let s := state_of 10 3 14 (take 18 mixed) in
  match exec s (ins (P:=H) 0 11 5)%N with
  | Ok (s', o) => sh_iter s = [(3, 0); (10, 5); (100, 5); (2, 1)]%N ∧ sh_iter s' = [(3, 0); (11, 5); (100, 5)]%N ∧
      hooks_of o = [EvBefore (P:=H) 2 1 1; EvEvict (P:=H) 2 1; EvBefore (P:=H) 10 5 5; EvEvict (P:=H) 10 5]%N
  | Fail _ => False end.
Proof. vm_compute. done. Qed.

(* ---- C09 ---- *)
(* An item that is pinned or weighs nothing stays through every call that does not itself
   write, change or erase it. *)
Theorem C09_pinned_and_weightless_stay : ∀ (P : Params), Lawful P → ∀ budget ghosts cap (h : list (cmd P)) os s m s' o k v,
  history budget ghosts cap h os s → exec s m = Ok (s', o) →
  (k, v) ∈ sh_iter s → spares m k v → weight P k v = 0%N ∨ pinned P k v = true →
  (k, v) ∈ sh_iter s'.
Proof.
  intros P LW budget ghosts cap h os s m s' o k v H He Hin Hsp Hz. destruct (history_step LW _ _ _ _ _ _ _ _ _ H He) as (_ & HI & Hd).
  by eapply does_stay.
Qed.
Print Assumptions C09_pinned_and_weightless_stay.
(* before_evict is never called on such an item; and on_evict only after before_evict, except
   for the key being written *)
Theorem C09_hooks_spare_pinned_and_weightless : ∀ (P : Params), Lawful P → ∀ budget ghosts cap (h : list (cmd P)) os s m s' o,
  history budget ghosts cap h os s → exec s m = Ok (s', o) →
  (∀ k v v', EvBefore k v v' ∈ hooks_of o → pinned P k v = false ∧ weight P k v ≠ 0%N) ∧
  (∀ k v, EvEvict k v ∈ hooks_of o →
     (∃ k0 v0, written m = Some (k0, v0) ∧ keqb P k0 k = true) ∨ ∃ v1, EvBefore k v1 v ∈ hooks_of o).
Proof.
  intros P LW budget ghosts cap h os s m s' o H He. destruct (history_step LW _ _ _ _ _ _ _ _ _ H He) as (_ & HI & Hd).
  split; intros; [by eapply does_before|by eapply (does_evict LW)].
Qed.
Print Assumptions C09_hooks_spare_pinned_and_weightless.
Example C09_example :
  let s := state_of 10 3 14 (take 18 mixed) in
  (100, 5)%N ∈ sh_iter s ∧ (3, 0)%N ∈ sh_iter s ∧ spares (P:=H) (ins (P:=H) 0 11 5)%N 100%N 5%N ∧ pinned H 100%N 5%N = true.
Proof. split_and!; [vm_compute; do 2 right; left|vm_compute; left|done|done]. Qed.

(* ---- C10 ---- *)
(* The hook calls of an insert: the offered value if it is too heavy, the replaced value, the
   refused value, and then evictions, each of them one before_evict followed by on_evict of
   the same item exactly when the item still has weight; items zeroed by before_evict stay. *)
Theorem C10_insert_hooks : ∀ (P : Params), Lawful P → ∀ budget ghosts cap (h : list (cmd P)) os s rs k v wl s' o,
  history budget ghosts cap h os s → exec s (CInsert rs k v wl) = Ok (s', o) →
  ∃ evs, hooks_of o =
      (if (budget <? weight P k v)%N && negb (pinned P k v) then [EvBefore k v (stored budget rs k v)] else []) ++
      match find_key k (sh_iter s) with Some (ko, vo) => [EvEvict ko vo] | None => [] end ++ evs ∧
    (refused budget rs k v → evs = [EvEvict k (stored budget rs k v)]) ∧
    (¬ refused budget rs k v → evictions evs ∧
       ∀ k' v' v'', EvBefore k' v' v'' ∈ evs → weight P k' v'' = 0%N → (k', v'') ∈ sh_iter s').
Proof.
  intros P LW budget ghosts cap h os s rs k v wl s' o H He. destruct (history_step LW _ _ _ _ _ _ _ _ _ H He) as (_ & HI & Hd).
  destruct Hd as (es & rs' & Hi & ->). rewrite hooks_of_reply.
  destruct (inserts_hooks _ _ _ _ _ _ _ _ _ _ _ Hi) as (of & re & rf & e2 & -> & Hev & Hz & -> & -> & Hr). simpl in Hr.
  destruct Hr as [(Hrf & -> & ->)|(Hrf & ->)].
  - exists [EvEvict k (stored budget rs k v)]. rewrite app_nil_r. split_and!; try done.
  - exists e2. split_and!; try done.
Qed.
Print Assumptions C10_insert_hooks.
(* the same for a load (get_or_insert_with, guard.insert) of an absent key *)
Theorem C10_load_hooks : ∀ (P : Params), Lawful P → ∀ budget ghosts cap (h : list (cmd P)) os s rs k v wl s' o,
  history budget ghosts cap h os s → exec s (CRefOrGuard rs k (GInsert v wl)) = Ok (s', o) → o_ret o = RGuard →
  ∃ kp evs, keqb P k kp = true ∧ hooks_of o =
      (if (budget <? weight P kp v)%N && negb (pinned P kp v) then [EvBefore kp v (stored budget rs kp v)] else []) ++ evs ∧
    (refused budget rs kp v → evs = [EvEvict kp (stored budget rs kp v)]) ∧
    (¬ refused budget rs kp v → evictions evs ∧
       ∀ k' v' v'', EvBefore k' v' v'' ∈ evs → weight P k' v'' = 0%N → (k', v'') ∈ sh_iter s').
Proof.
  intros P LW budget ghosts cap h os s rs k v wl s' o H He Hret. destruct (history_step LW _ _ _ _ _ _ _ _ _ H He) as (_ & HI & Hd).
  simpl in Hd. destruct (value_of k (sh_iter s)); [destruct Hd as [_ ->]; done|].
  destruct Hd as (kp & es & rs' & Hkp & Hl & ->). rewrite hooks_of_reply. exists kp.
  destruct (loads_hooks _ _ _ _ _ _ _ _ _ Hl) as (of & rf & e2 & -> & Hev & Hz & -> & Hr).
  destruct Hr as [(Hrf & -> & ->)|(Hrf & ->)].
  - exists [EvEvict kp (stored budget rs kp v)]. rewrite app_nil_r. split_and!; try done.
  - exists e2. split_and!; try done.
Qed.
Print Assumptions C10_load_hooks.
(* before_evict zeroes the value 7 and so saves key 3 *)
Example C10_example :
  let s := state_of 10 3 14 (take 7 mixed) in
  match exec s (ins (P:=H) 0 5 6)%N with
  | Ok (s', o) => hooks_of o = [EvBefore (P:=H) 3 7 0]%N ∧ (3, 0)%N ∈ sh_iter s'
  | Fail _ => False end.
Proof. vm_compute. split; [done|]. left. Qed.
