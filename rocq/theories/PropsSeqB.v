(* Properties C11 to C26 and C42 of the unsync cache: the theorems, and executions that meet
   their hypotheses. The vocabulary is in Spec.v, ApiSpec.v and PropSpec.v; the concrete
   instances U, W and H are in Demo.v. *)
From Verif Require Import Reach SeqProofs SeqProofs2 SeqProofs3 SeqProofs4 SeqProofs5 SeqProofs6 Demo.

(* ---- C11 ---- *)
(* A history of calls fails only in the two documented ways, and only when: more than 2^32 - 2
   slots would be needed, which takes about as many calls; or the 64-bit weight counters
   overflow, see may_overflow in ApiSpec.v. It never panics otherwise and never reaches
   undefined behaviour. *)
Theorem C11_only_documented_aborts : ∀ (P : Params), Lawful P → ∀ budget ghosts cap (h : list (cmd P)) e,
  run (sh_new budget ghosts cap) h = Fail e →
  (e = SlabFull ∧ (two32 ≤ N.of_nat (length h) + 1)%N) ∨
  (e = WeightOvf ∧ ∃ h1 m h2 os s, h = h1 ++ m :: h2 ∧ history budget ghosts cap h1 os s ∧
     may_overflow cap budget (sh_iter s) m).
Proof.
  intros P LW budget ghosts cap h e H. destruct (history_fail LW _ _ _ _ _ H) as (h1 & m & h2 & os & s & -> & H1 & He).
  destruct e; try done.
  - left. split; [done|]. pose proof (history_used LW _ _ _ _ _ _ H1). rewrite app_length. simpl. lia.
  - right. split; [done|]. by exists h1, m, h2, os, s.
Qed.
Print Assumptions C11_only_documented_aborts.
(* With weights of at most W, a history of n calls succeeds when (n + 1) * W < 2^64 and
   n + 1 < 2^32. *)
Theorem C11_short_histories_succeed : ∀ (P : Params), Lawful P → ∀ budget ghosts cap (h : list (cmd P)) W,
  (∀ k v, (weight P k v ≤ W)%N) → (N.of_nat (S (length h)) * W < two64)%N → (N.of_nat (length h) + 1 < two32)%N →
  ∃ s os, history budget ghosts cap h os s.
Proof.
  intros P LW budget ghosts cap h W HW Hl H32. unfold history. destruct (run (sh_new budget ghosts cap) h) as [[s os]|e] eqn:E; [eauto|].
  exfalso. destruct (C11_only_documented_aborts P LW _ _ _ _ _ E) as [[_ ?]|(_ & h1 & m & h2 & os & s & -> & H1 & Ho)]; [lia|].
  apply (overflow_light W) in Ho; [|done]. pose proof (history_used LW _ _ _ _ _ _ H1). pose proof (length_used s).
  rewrite app_length in Hl. cbn [length] in Hl.
  assert (N.of_nat (S (length (sh_iter s))) * W ≤ N.of_nat (S (length h1 + S (length h2))) * W)%N; [|lia].
  apply N.mul_le_mono_r. lia.
Qed.
Print Assumptions C11_short_histories_succeed.
(* Without pinning, weightless items or growing in-place changes, histories of any length
   succeed when capacity plus hot budget fit 64 bits and capacity, ghost capacity and the
   loads abandoned so far stay below 2^32 - 2. *)
Theorem C11_bounded_caches_never_abort : ∀ (P : Params), Lawful P → ∀ budget ghosts cap (h : list (cmd P)),
  (∀ k v, pinned P k v = false) → (∀ k v, (1 ≤ weight P k v)%N) → Forall no_growth h →
  (budget ≤ cap)%N → (cap + budget < two64)%N → (cap + ghosts + abandoned h + 2 < two32)%N →
  ∃ s os, history budget ghosts cap h os s.
Proof.
  intros P LW budget ghosts cap h Hp Hw Hg Hb Hc H32. unfold history. destruct (run (sh_new budget ghosts cap) h) as [[s os]|e] eqn:E; [eauto|].
  exfalso. destruct (history_fail LW _ _ _ _ _ E) as (h1 & m & h2 & os & s & -> & H1 & He).
  apply Forall_app in Hg as [Hg1 Hg2]. apply Forall_cons in Hg2 as [Hg2 _].
  pose proof (history_wsum LW _ _ _ _ _ _ Hb Hp Hg1 H1) as Hws.
  pose proof (history_used_bound LW _ _ _ _ _ _ Hb Hp Hw Hg1 H1) as Hus.
  assert (abandoned h1 ≤ abandoned (h1 ++ m :: h2))%N as Hab. { unfold abandoned. rewrite List.filter_app, app_length. lia. }
  destruct e; try done; [lia|]. by eapply overflow_unpinned.
Qed.
Print Assumptions C11_bounded_caches_never_abort.
Example C11_example : Forall no_growth [ins (P:=U) 0 1 3; CRefOrGuard (P:=U) 0 2 GDrop; CGetMut (P:=U) 1 (λ v, v + 9)]%N ∧
  is_Some (run_of 2 1 2 [ins (P:=U) 0 1 3; CRefOrGuard (P:=U) 0 2 GDrop; CGetMut (P:=U) 1 (λ v, v + 9)]%N).
Proof.
  split; [repeat (apply Forall_cons; split; [first [exact I|by intros k v _]|]); by apply Forall_nil|]. vm_compute. eauto.
Qed.

(* ---- C12 ---- *)
(* Every call returns: the loops never run out of their fuel, which is an explicit function of
   the number of slots (evict_until 2n+1 steps, advance_cold n+1, advance_hot 3n+1, the trimming
   loop n+1, each of the outer ones running the inner ones), whatever is pinned or referenced. *)
Theorem C12_calls_terminate : ∀ (P : Params), Lawful P → ∀ budget ghosts cap (h : list (cmd P)),
  run (sh_new budget ghosts cap) h ≠ Fail NoFuel.
Proof. intros P LW budget ghosts cap h H. destruct (C11_only_documented_aborts P LW _ _ _ _ _ H) as [[? _]|[? _]]; done. Qed.
Print Assumptions C12_calls_terminate.
(* The fuel only bounds the loops: when it suffices, more of it changes nothing, so the
   model computes what the unbounded loops of the code compute. *)
Theorem C12_fuel_is_only_a_bound : ∀ (P : Params) (f f' : nat) (s : shard P) l, f ≤ f' →
  (∀ i u, advance_hot_loop f s l i u ≠ Fail NoFuel → advance_hot_loop f' s l i u = advance_hot_loop f s l i u) ∧
  (trim_hot f s l ≠ Fail NoFuel → trim_hot f' s l = trim_hot f s l) ∧
  (∀ i, advance_cold_loop f s l i ≠ Fail NoFuel → advance_cold_loop f' s l i = advance_cold_loop f s l i) ∧
  (∀ x, evict_loop f s l x ≠ Fail NoFuel → evict_loop f' s l x = evict_loop f s l x).
Proof.
  intros P f f' s l Hle. split_and!; intros; [by apply hot_loop_more|by apply trim_more|by apply cold_loop_more|by apply evict_loop_more].
Qed.
Print Assumptions C12_fuel_is_only_a_bound.
(* everything is pinned: the sweep of the last insert gives up and the call returns *)
Example C12_example :
  match run_of 10 3 14 [ins (P:=H) 0 101 9; ins (P:=H) 0 102 9; ins (P:=H) 0 103 9; CGet (P:=H) 101; ins (P:=H) 0 104 9]%N with
  | Some (s, _) => sh_weight s = Ok 36%N | None => False end.
Proof. vm_compute. done. Qed.

(* ---- C13 ---- *)
(* A refused insert leaves its key absent and every other item alone; the old value, if any,
   and the refused value are reported. *)
Theorem C13_overweight_insert : ∀ (P : Params), Lawful P → ∀ budget ghosts cap (h : list (cmd P)) os s rs k v wl s' o,
  history budget ghosts cap h os s → exec s (CInsert rs k v wl) = Ok (s', o) → refused budget rs k v →
  let v' := (before_evict P rs k v).2 in
  (∀ k0 v0, (k0, v0) ∈ sh_iter s' ↔ (k0, v0) ∈ sh_iter s ∧ keqb P k k0 = false) ∧
  hooks_of o = EvBefore k v v' :: match find_key k (sh_iter s) with Some (ko, vo) => [EvEvict ko vo] | None => [] end ++ [EvEvict k v'].
Proof.
  intros P LW budget ghosts cap h os s rs k v wl s' o H He Hr. destruct (history_step LW _ _ _ _ _ _ _ _ _ H He) as (_ & HI & Hd).
  destruct Hd as (es & rs' & Hi & ->). rewrite hooks_of_reply. simpl.
  pose proof (inserts_refused _ _ _ _ _ _ _ _ _ _ _ Hi Hr) as [Hp _].
  destruct (inserts_hooks _ _ _ _ _ _ _ _ _ _ _ Hi) as (of & re & rf & e2 & -> & Hev & Hz & -> & -> & Hrr).
  destruct Hrr as [(_ & -> & ->)|(Hn & _)]; [|done]. split.
  - intros k0 v0. rewrite Hp. apply del_elem.
  - destruct Hr as (H1 & H2 & H3). apply N.ltb_lt in H1. unfold stored. rewrite H1, H2. simpl. try done.
Qed.
Print Assumptions C13_overweight_insert.
Example C13_example : refused (P:=H) 10%N 0%N 6%N 90%N ∧
  match exec (state_of 10 3 14 (take 8 mixed)) (ins (P:=H) 0 6 90)%N with
  | Ok (s', o) => sh_iter s' ≡ₚ sh_iter (state_of 10 3 14 (take 8 mixed)) ∧ length (sh_iter s') = 4
  | Fail _ => False end.
Proof. split; [unfold refused; vm_compute; done|]. vm_compute. done. Qed.

(* ---- C14 ---- *)
(* A value that fits evicts nothing. *)
Theorem C14_fitting_insert : ∀ (P : Params), Lawful P → ∀ budget ghosts cap (h : list (cmd P)) os s rs k v wl s' o,
  history budget ghosts cap h os s → exec s (CInsert rs k v wl) = Ok (s', o) → ¬ refused budget rs k v →
  let v' := stored budget rs k v in
  (wsum (del k (sh_iter s)) + weight P k v' ≤ cap)%N →
  sh_iter s' ≡ₚ (k, v') :: del k (sh_iter s) ∧
  evicted (hooks_of o) = match find_key k (sh_iter s) with Some p => [p] | None => [] end.
Proof.
  intros P LW budget ghosts cap h os s rs k v wl s' o H He Hr v' Hfit. destruct (history_step LW _ _ _ _ _ _ _ _ _ H He) as (_ & HI & Hd).
  destruct Hd as (es & rs' & Hi & ->). rewrite hooks_of_reply.
  destruct (inserts_fits _ _ _ _ _ _ _ _ _ _ _ Hi Hr) as (Hp & _ & ->); [by left|done|]. split; [done|].
  unfold evicted. rewrite omap_app. destruct (_ && _); simpl; by destruct (find_key k (sh_iter s)) as [[??]|].
Qed.
Print Assumptions C14_fitting_insert.
Theorem C14_fitting_replace : ∀ (P : Params), Lawful P → ∀ budget ghosts cap (h : list (cmd P)) os s rs k v soft wl s' o,
  history budget ghosts cap h os s → exec s (CReplace rs k v soft wl) = Ok (s', o) → ¬ refused budget rs k v →
  let v' := stored budget rs k v in
  has k (sh_iter s) = true → (wsum (del k (sh_iter s)) + weight P k v' ≤ cap)%N →
  sh_iter s' ≡ₚ (k, v') :: del k (sh_iter s) ∧ o_ret o = RPair None.
Proof.
  intros P LW budget ghosts cap h os s rs k v soft wl s' o H He Hr v' Hh Hfit. destruct (history_step LW _ _ _ _ _ _ _ _ _ H He) as (_ & HI & Hd).
  destruct Hd as (es & rs' & b & Hi & ->).
  destruct (inserts_fits _ _ _ _ _ _ _ _ _ _ _ Hi Hr) as (Hp & -> & ->); [by right|done|]. done.
Qed.
Print Assumptions C14_fitting_replace.
(* guard.insert; kp is the equal key the load was started with *)
Theorem C14_fitting_guard_insert : ∀ (P : Params), Lawful P → ∀ budget ghosts cap (h : list (cmd P)) os s rs k v wl s' o,
  history budget ghosts cap h os s → exec s (CRefOrGuard rs k (GInsert v wl)) = Ok (s', o) → o_ret o = RGuard →
  (∀ kp, keqb P k kp = true → ¬ refused budget rs kp v ∧ (wsum (sh_iter s) + weight P kp (stored budget rs kp v) ≤ cap)%N) →
  ∃ kp, keqb P k kp = true ∧ sh_iter s' ≡ₚ (kp, stored budget rs kp v) :: sh_iter s ∧ evicted (hooks_of o) = [].
Proof.
  intros P LW budget ghosts cap h os s rs k v wl s' o H He Hret Hk. destruct (history_step LW _ _ _ _ _ _ _ _ _ H He) as (_ & HI & Hd).
  simpl in Hd. destruct (value_of k (sh_iter s)); [destruct Hd as [_ ->]; done|].
  destruct Hd as (kp & es & rs' & Hkp & Hl & ->). rewrite hooks_of_reply. exists kp. destruct (Hk kp Hkp) as [Hr Hfit].
  destruct (loads_fits _ _ _ _ _ _ _ _ _ Hl Hr Hfit) as [Hp ->]. split_and!; try done. by destruct (_ && _).
Qed.
Print Assumptions C14_fitting_guard_insert.
Example C14_example :
  let s := state_of 10 3 14 (take 2 plainh) in
  (wsum (del (P:=W) 2%N (sh_iter s)) + 9 ≤ 14)%N ∧
  match exec s (ins (P:=W) 0 2 9)%N with
  | Ok (s', o) => sh_iter s' ≡ₚ [(1, 3); (2, 9)]%N ∧ evicted (hooks_of o) = [(2, 4)]%N | Fail _ => False end.
Proof. vm_compute. split; [done|]. split; done. Qed.

(* ---- C15 ---- *)
(* After an admitted insert, the value (as before_evict may have left it) is cached, or was
   reported by on_evict in the same request. *)
Theorem C15_insert_outcome_visible : ∀ (P : Params), Lawful P → ∀ budget ghosts cap (h : list (cmd P)) os s rs k v wl s' o,
  history budget ghosts cap h os s → exec s (CInsert rs k v wl) = Ok (s', o) → ¬ refused budget rs k v →
  let v1 := stored budget rs k v in
  u_peek s' k = Ok (Some v1) ∨
  ∃ rs1 rs2 v2, before_evict P rs1 k v1 = (rs2, v2) ∧
    if (weight P k v2 =? 0)%N then u_peek s' k = Ok (Some v2) else EvEvict k v2 ∈ hooks_of o.
Proof.
  intros P LW budget ghosts cap h os s rs k v wl s' o H He Hr v1. destruct (history_step LW _ _ _ _ _ _ _ _ _ H He) as (Hs & HI & Hd).
  destruct Hd as (es & rs' & Hi & ->). rewrite hooks_of_reply. unfold u_peek. rewrite (sh_peek_spec LW s' k (st_inv _ _ _ _ Hs)).
  assert (∀ w, (k, w) ∈ sh_iter s' → value_of k (sh_iter s') = Some w) as Hv.
  { intros w Hin. apply (value_in LW); [by apply (inv_ukeys LW), (st_inv _ _ _ _ Hs)|]. exists k. split; [done|apply (keqb_refl _ LW)]. }
  destruct (inserts_fate _ _ _ _ _ _ _ _ _ _ Hi Hr) as [Hin|(v2 & (rs1 & rs2 & Hb) & Hc)].
  - left. by rewrite (Hv _ Hin).
  - right. exists rs1, rs2, v2. split; [done|]. destruct (_ =? _)%N; [by rewrite (Hv _ Hc)|done].
Qed.
Print Assumptions C15_insert_outcome_visible.
(* A key the cache does not track at all (neither cached, nor pending, nor remembered as
   evicted) is always cached after an admitted insert. *)
Theorem C15_untracked_insert_is_cached : ∀ (P : Params), Lawful P → ∀ budget ghosts cap (h : list (cmd P)) os s rs k v wl s' o,
  history budget ghosts cap h os s → exec s (CInsert rs k v wl) = Ok (s', o) → ¬ refused budget rs k v →
  (∀ t, (hash P k, t) ∉ tpairs (sh_map s)) →
  (k, stored budget rs k v) ∈ sh_iter s'.
Proof.
  intros P LW budget ghosts cap h os s rs k v wl s' o H He Hr Hu. destruct (history_inv LW _ _ _ _ _ _ H) as [HI Hc].
  unfold cfg in Hc. injection Hc as Hc1 _ _.
  destruct (admission budget rs k v) as [[[rs1 es] v1] b] eqn:Ha.
  assert (b = false) as ->. { destruct b; [|done]. destruct Hr. by eapply admission_refused. }
  pose proof (insert_fresh LW s rs k v wl s' o HI Hu) as Hf. rewrite Hc1, Ha in Hf. simpl in Hf.
  rewrite <-(admission_stored _ _ _ _ _ _ _ _ Ha). by apply Hf.
Qed.
Print Assumptions C15_untracked_insert_is_cached.
(* The stronger claim, that an admitted insert always ends with the value cached, is false:
   a key that was evicted before may be evicted again by its own insert. *)
Theorem C15_always_cached_refuted : ∃ (P : Params), Lawful P ∧ ∃ budget ghosts cap (h : list (cmd P)) os s rs k v s' o,
  (budget ≤ cap)%N ∧ history budget ghosts cap h os s ∧ exec s (CInsert rs k v false) = Ok (s', o) ∧
  ¬ refused budget rs k v ∧ u_peek s' k = Ok None.
Proof.
  exists W. split; [exact lawW|]. exists 9%N, 3%N, 10%N.
  exists [ins (P:=W) 0 1 5; CGet (P:=W) 1; ins (P:=W) 0 2 5; ins (P:=W) 0 3 5; CRemove (P:=W) 3; CGet (P:=W) 1]%N.
  eexists _, _, 0%N, 2%N, 9%N, _, _. split; [done|]. split; [vm_compute; reflexivity|]. split; [vm_compute; reflexivity|].
  split; [|vm_compute; reflexivity]. unfold refused. simpl. lia.
Qed.
Print Assumptions C15_always_cached_refuted.
(* the insert of key 11 evicts others and stays; key 12 was never seen before it *)
Example C15_example :
  let s := state_of 10 3 14 (take 18 mixed) in
  ¬ refused (P:=H) 10%N 0%N 11%N 5%N ∧ Forall (λ p, p.1 ≠ hash H 11%N) (tpairs (sh_map (state_of 10 3 14 [ins (P:=H) 0 2 4; ins (P:=H) 0 4 12]%N))) ∧
  match exec s (ins (P:=H) 0 11 5)%N with Ok (s', o) => u_peek (P:=H) s' 11%N = Ok (Some 5%N) | Fail _ => False end.
Proof. split; [unfold refused; simpl; lia|]. vm_compute. split; [|done]. repeat (apply Forall_cons; split; [done|]). by apply Forall_nil. Qed.

(* ---- C16 ---- *)
(* replace answers Ok exactly when the key was cached and the value is admitted; Err hands back
   the pair and leaves the key absent and every other item as before; no key appears. *)
Theorem C16_replace_never_creates : ∀ (P : Params), Lawful P → ∀ budget ghosts cap (h : list (cmd P)) os s rs k v soft wl s' o,
  history budget ghosts cap h os s → exec s (CReplace rs k v soft wl) = Ok (s', o) →
  (o_ret o = RPair None ↔ has k (sh_iter s) = true ∧ ¬ refused budget rs k v) ∧
  (o_ret o ≠ RPair None → o_ret o = RPair (Some (k, stored budget rs k v)) ∧
     sh_iter s' ≡ₚ del k (sh_iter s) ∧ u_peek s' k = Ok None) ∧
  (∀ k0, has k0 (sh_iter s') = true → has k0 (sh_iter s) = true).
Proof.
  intros P LW budget ghosts cap h os s rs k v soft wl s' o H He. destruct (history_step LW _ _ _ _ _ _ _ _ _ H He) as (Hs & HI & Hd).
  destruct Hd as (es & rs' & b & Hi & Ho). destruct (inserts_replace LW _ _ _ _ _ _ _ _ _ _ Hi) as (H1 & H2 & H3).
  assert (o_ret o = RPair b) as Hret by (rewrite Ho; by destruct b). split_and!; [| |done].
  - rewrite Hret, <-H1. split; [by intros [= ->]|by intros ->].
  - rewrite Hret. intros Hn. destruct H2 as [-> Hp]; [by intros ->|]. split_and!; try done.
    unfold u_peek. rewrite (sh_peek_spec LW s' k (st_inv _ _ _ _ Hs)). f_equal. apply value_none, find_key_None.
    intros p Hin. rewrite Hp in Hin. by apply del_elem in Hin as [_ ?].
Qed.
Print Assumptions C16_replace_never_creates.
(* Ok does not mean that the new value is still cached: it may be evicted by its own request. *)
Theorem C16_replaced_is_cached_refuted : ∃ (P : Params), Lawful P ∧ ∃ budget ghosts cap (h : list (cmd P)) os s rs k v s' o,
  (budget ≤ cap)%N ∧ history budget ghosts cap h os s ∧ exec s (CReplace rs k v true false) = Ok (s', o) ∧
  o_ret o = RPair None ∧ u_peek s' k = Ok None.
Proof.
  exists W. split; [exact lawW|]. exists 9%N, 3%N, 10%N.
  exists [ins (P:=W) 0 1 5; CGet (P:=W) 1; ins (P:=W) 0 2 2; CGet (P:=W) 1]%N.
  eexists _, _, 0%N, 2%N, 9%N, _, _. split; [done|]. split; [vm_compute; reflexivity|]. split; [vm_compute; reflexivity|].
  split; vm_compute; reflexivity.
Qed.
Print Assumptions C16_replaced_is_cached_refuted.
(* one replace is accepted, one finds no key, one is too heavy *)
Example C16_example :
  outs_of 10 3 14 [ins (P:=W) 0 1 3; CReplace (P:=W) 0 1 4 false true; CReplace (P:=W) 0 2 4 false false; CReplace (P:=W) 0 1 12 false false]%N =
  [Out RUnit [LBegin (P:=W) 0; LEnd (P:=W) 0] false None;
   Out (P:=W) (RPair None) [LBegin (P:=W) 0; LHook (EvEvict (P:=W) 1 3)] false (Some 1000);
   Out (RPair (P:=W) (Some (2, 4))) [LBegin (P:=W) 0] false None;
   Out (RPair (P:=W) (Some (1, 12))) [LBegin (P:=W) 0; LHook (EvBefore (P:=W) 1 12 12); LHook (EvEvict (P:=W) 1 4)] false None]%N.
Proof. vm_compute. done. Qed.

(* ---- C17 ---- *)
Theorem C17_remove_exact : ∀ (P : Params), Lawful P → ∀ budget ghosts cap (h : list (cmd P)) os s k s' o,
  history budget ghosts cap h os s → exec s (CRemove k) = Ok (s', o) →
  (∀ k' v, o_ret o = RPair (Some (k', v)) ↔ (k', v) ∈ sh_iter s ∧ keqb P k k' = true) ∧
  (o_ret o = RPair None ↔ ∀ k' v, (k', v) ∈ sh_iter s → keqb P k k' = false) ∧
  (∀ k' v, (k', v) ∈ sh_iter s' ↔ (k', v) ∈ sh_iter s ∧ keqb P k k' = false) ∧
  sh_capacity s' = sh_capacity s ∧ o_log o = [] ∧ (sh_hits s', sh_misses s') = (sh_hits s, sh_misses s).
Proof.
  intros P LW budget ghosts cap h os s k s' o H He. destruct (history_step LW _ _ _ _ _ _ _ _ _ H He) as (Hs & HI & Hd).
  destruct Hd as [Hp ->]. simpl. split_and!.
  - intros k' v. split.
    + intros [= Hf]. by apply find_key_Some in Hf.
    + intros [Hin Hk]. by rewrite (find_key_in LW k (sh_iter s) (k', v) (inv_ukeys LW s HI) Hin Hk).
  - split.
    + intros [= Hf] k' v Hin. by eapply (SeqProofs2.find_none k).
    + intros Hn. f_equal. apply find_key_None. intros [k' v] Hin. by eapply Hn.
  - intros k' v. rewrite Hp. apply del_elem.
  - pose proof (st_cfg _ _ _ _ Hs) as Hc. unfold cfg in Hc. by injection Hc.
  - done.
  - exact (st_stats _ _ _ _ Hs).
Qed.
Print Assumptions C17_remove_exact.
Example C17_example : match exec (state_of 10 3 14 mixed) (CRemove (P:=H) 11%N) with
  | Ok (s', o) => o_ret o = RPair (P:=H) (Some (11, 5))%N ∧ sh_iter s' = [(3, 0); (100, 5)]%N | Fail _ => False end.
Proof. vm_compute. done. Qed.

(* ---- C18 ---- *)
Theorem C18_retain_exact : ∀ (P : Params), Lawful P → ∀ budget ghosts cap (h : list (cmd P)) os s f s' o,
  history budget ghosts cap h os s → exec s (CRetain f) = Ok (s', o) →
  (∀ k v, (k, v) ∈ sh_iter s' ↔ (k, v) ∈ sh_iter s ∧ f k v = true) ∧
  sh_iter s' ≡ₚ List.filter (λ p, f p.1 p.2) (sh_iter s) ∧ o_log o = [].
Proof.
  intros P LW budget ghosts cap h os s f s' o H He. destruct (history_step LW _ _ _ _ _ _ _ _ _ H He) as (Hs & HI & Hd).
  destruct Hd as [Hp ->]. split_and!; try done. intros k v. rewrite Hp, !elem_of_list_In. apply filter_In.
Qed.
Print Assumptions C18_retain_exact.
Example C18_example : match exec (state_of 10 3 14 mixed) (CRetain (P:=H) (λ k v, (v =? 5)%N)) with
  | Ok (s', o) => sh_iter s' = [(11, 5); (100, 5)]%N | Fail _ => False end.
Proof. vm_compute. done. Qed.

(* ---- C19 ---- *)
(* drain hands out every item once; drain and clear leave the state of a newly built cache with
   the same options, except for the hit and miss counters, the identities given to pending
   loads, and the allocation of the (empty) hash table. *)
Theorem C19_clear_and_drain : ∀ (P : Params), Lawful P → ∀ budget ghosts cap (h : list (cmd P)) os s m s' o,
  history budget ghosts cap h os s → m = CClear ∨ m = CDrain → exec s m = Ok (s', o) →
  o = plain (match m with CDrain => RItems (sh_iter s) | _ => RUnit end) ∧
  sh_iter s' = [] ∧ sh_len s' = 0%N ∧ sh_weight s' = Ok 0%N ∧ storage s' = 0%N ∧
  s' = set_nph (set_misses (set_hits (set_map (sh_new budget ghosts cap) (tclear (sh_map s))) (sh_hits s)) (sh_misses s)) (sh_nph s) ∧
  (* no matter what happened before, what follows only depends on the calls that follow: every
     theorem about histories applies to them, with the same parameters *)
  ∀ h2 os2 s2, run s' h2 = Ok (s2, os2) → history budget ghosts cap (h ++ m :: h2) (os ++ o :: os2) s2.
Proof.
  intros P LW budget ghosts cap h os s m s' o H Hm He. destruct (history_inv LW _ _ _ _ _ _ H) as [HI Hc]. unfold cfg in Hc. injection Hc as Hc1 Hc2 Hc3.
  split; [|split; [|split; [|split; [|split; [|split]]]]].
  7: { intros h2 os2 s2 Hr. unfold history. rewrite run_app, H. simpl. rewrite He. simpl. by rewrite Hr. }
  all: destruct Hm as [-> | ->]; simpl in He; injection He as <- <-; try done; unfold sh_clear, sh_drain; simpl;
    rewrite Hc1, Hc2, Hc3; reflexivity.
Qed.
Print Assumptions C19_clear_and_drain.
Example C19_example : match exec (state_of 10 3 14 mixed) (CDrain (P:=H)) with
  | Ok (s', o) => o_ret o = RItems (P:=H) [(3, 0); (11, 5); (100, 5)]%N ∧ sh_len s' = 0%N | Fail _ => False end.
Proof. vm_compute. done. Qed.

(* ---- C20 ---- *)
(* contains_key and peek change nothing at all. get, on a miss, only counts the miss; on a hit
   it counts the hit and raises the reference count of that item, up to 2. *)
Theorem C20_peeks_change_nothing : ∀ (P : Params), Lawful P → ∀ budget ghosts cap (h : list (cmd P)) os s k,
  history budget ghosts cap h os s →
  (∃ b, exec s (CContains k) = Ok (s, plain (RBool b))) ∧ (∃ r, exec s (CPeek k) = Ok (s, plain (RVal r))).
Proof.
  intros P LW budget ghosts cap h os s k H. destruct (history_inv LW _ _ _ _ _ _ H) as [HI _]. simpl. unfold u_contains, u_peek.
  rewrite (sh_contains_spec LW s k HI), (sh_peek_spec LW s k HI). simpl. eauto.
Qed.
Print Assumptions C20_peeks_change_nothing.
Theorem C20_get_changes_no_content : ∀ (P : Params), Lawful P → ∀ budget ghosts cap (h : list (cmd P)) os s k,
  history budget ghosts cap h os s →
  ∃ s' r, exec s (CGet k) = Ok (s', plain (RVal r)) ∧ sh_iter s' = sh_iter s ∧
    match r with
    | None => s' = set_misses s (sh_misses s + 1)
    | Some v => ∃ t r, item <$> ents (sh_ents s) !! t = Some (Some (Resident r)) ∧ keqb P k (r_key r) = true ∧ r_val r = v ∧
        s' = set_hits (set_entry s t (Resident (Res (r_key r) (r_val r) (r_state r) (if (r_ref r <? 2)%N then r_ref r + 1 else r_ref r)%N))) (sh_hits s + 1)
    end.
Proof.
  intros P LW budget ghosts cap h os s k H. destruct (history_inv LW _ _ _ _ _ _ H) as [HI _].
  destruct (sh_get_spec LW s k HI) as (s' & Hg & Hq & _). exists s', (value_of k (sh_iter s)). simpl. unfold u_get. rewrite Hg. simpl.
  split; [done|]. split; [exact (q_iter _ _ Hq)|]. pose proof (get_effect LW _ _ _ _ Hg HI) as Hx.
  destruct (value_of k (sh_iter s)) as [v|]; [|done]. destruct Hx as (t & r & Ht & Hk & Hv & ->). exists t, r. split_and!; try done.
  by rewrite <-list_lookup_fmap.
Qed.
Print Assumptions C20_get_changes_no_content.
Example C20_example : match exec (state_of 10 3 14 mixed) (CGet (P:=H) 11%N) with
  | Ok (s', o) => o_ret o = RVal (P:=H) (Some 5%N) ∧ sh_iter s' = [(3, 0); (11, 5); (100, 5)]%N | Fail _ => False end.
Proof. vm_compute. done. Qed.

(* ---- C21 ---- *)
Theorem C21_ghosts_bounded : ∀ (P : Params), Lawful P → ∀ budget ghosts cap (h : list (cmd P)) os s,
  history budget ghosts cap h os s → (N.of_nat (length (remembered s)) ≤ ghosts)%N.
Proof. intros P LW budget ghosts cap h os s H. by eapply (history_ghosts LW). Qed.
Print Assumptions C21_ghosts_bounded.
Example C21_example :
  let h := [ins (P:=W) 0 1 5; CGet (P:=W) 1; ins (P:=W) 0 2 5; ins (P:=W) 0 3 5; ins (P:=W) 0 4 5; ins (P:=W) 0 5 5]%N in
  length (remembered (state_of 9 2 10 h)) = 2.
Proof. vm_compute. done. Qed.

(* ---- C22 ---- *)
(* Without pinned or weightless items, growing in-place changes and pending loads, at most
   capacity + ghost capacity slots are ever allocated; with pending loads, one more slot, and
   one for each load abandoned so far. *)
Theorem C22_storage_bounded : ∀ (P : Params), Lawful P → ∀ budget ghosts cap (h : list (cmd P)) os s,
  (budget ≤ cap)%N → (∀ k v, pinned P k v = false) → (∀ k v, (1 ≤ weight P k v)%N) → Forall no_growth h →
  Forall (λ m, guarded m = false) h → history budget ghosts cap h os s → (storage s ≤ cap + ghosts)%N.
Proof. intros P LW budget ghosts cap h os s. rewrite storage_slots. apply (history_slots LW). Qed.
Print Assumptions C22_storage_bounded.
Theorem C22_storage_with_loads : ∀ (P : Params), Lawful P → ∀ budget ghosts cap (h : list (cmd P)) os s,
  (budget ≤ cap)%N → (∀ k v, pinned P k v = false) → (∀ k v, (1 ≤ weight P k v)%N) → Forall no_growth h →
  history budget ghosts cap h os s → (storage s ≤ cap + ghosts + abandoned h + 1)%N.
Proof. intros P LW budget ghosts cap h os s. rewrite storage_slots. apply (history_slots_guarded LW). Qed.
Print Assumptions C22_storage_with_loads.
(* The bound without the abandoned loads is false: on any cache, each guard that is dropped
   without inserting costs a slot for good. *)
Theorem C22_abandoned_loads_leak_refuted : ∀ (P : Params), Lawful P → ∀ budget ghosts cap rs k (n : nat),
  (N.of_nat n + 2 < two32)%N →
  ∃ os s, history (P:=P) budget ghosts cap (replicate n (CRefOrGuard rs k GDrop)) os s ∧ sh_iter s = [] ∧ storage s = N.of_nat n.
Proof.
  intros P LW budget ghosts cap rs k n Hn. destruct (leak_run LW rs k budget ghosts cap n Hn) as (s & os & H & Hl & Hs & _).
  exists os, s. split_and!; [done| |unfold storage; by rewrite Hs].
  destruct (sh_iter s) as [|[k0 v0] c] eqn:E; [done|]. exfalso.
  assert (∀ c m o c', does (P:=P) cap budget c m o c' → m = CRefOrGuard rs k GDrop → c = [] → c' = []) as Hx.
  { intros c1 m o c' Hd -> ->. simpl in Hd. destruct Hd as [Hp _]. symmetry in Hp; by apply Permutation_nil in Hp. }
  clear Hl Hs Hn. assert (sh_iter s = []) as Hs; [|by rewrite Hs in E].
  assert (Forall (λ m, m = CRefOrGuard rs k GDrop) (replicate n (CRefOrGuard rs k GDrop : cmd P))) as HF.
  { apply Forall_forall. by intros m [-> _]%elem_of_replicate. }
  revert HF. eapply (history_ind LW budget ghosts cap (λ h os s, Forall (λ m, m = CRefOrGuard rs k GDrop) h → sh_iter s = [])); [done| |exact H].
  intros h0 os0 s0 m o s' H0 HI Hc IH He Hst Hd [HF1 HF2]%Forall_app. apply Forall_cons in HF2 as [HF2 _]. eapply Hx; [exact Hd|done|by apply IH].
Qed.
Print Assumptions C22_abandoned_loads_leak_refuted.
Example C22_example :
  storage (state_of 10 3 14 (plainh ++ plainh)) = 5%N ∧
  storage (state_of 10 3 14 (plainh ++ replicate 30 (CRefOrGuard (P:=W) 0 90 GDrop)))%N = 32%N.
Proof. vm_compute. done. Qed.

(* ---- C23 ---- *)
(* get_or_insert_with: the closure is called exactly when the key is not cached. On a hit the
   cached value is returned and nothing changes; on a failed closure nothing changes; on a
   successful one, the value is loaded, and the reply is the value cached under k afterwards.
   kp is the equal key the pending load was started with. *)
Theorem C23_get_or_insert_with : ∀ (P : Params), Lawful P → ∀ budget ghosts cap (h : list (cmd P)) os s rs k w s' o,
  history budget ghosts cap h os s → exec s (CGetOrInsert rs k w) = Ok (s', o) →
  (o_called o = true ↔ u_peek s k = Ok None) ∧
  (∀ v, u_peek s k = Ok (Some v) → o_ret o = RVal (Some v) ∧ sh_iter s' ≡ₚ sh_iter s ∧ o_log o = []) ∧
  (u_peek s k = Ok None → w = None → o_ret o = RErr ∧ sh_iter s' ≡ₚ sh_iter s ∧ o_log o = []) ∧
  (∀ v, u_peek s k = Ok None → w = Some v → ∃ r kp, u_peek s' k = Ok r ∧ o_ret o = RVal r ∧ keqb P k kp = true ∧
     (refused budget rs kp v → r = None ∧ sh_iter s' ≡ₚ sh_iter s) ∧
     (¬ refused budget rs kp v → (wsum (sh_iter s) + weight P kp (stored budget rs kp v) ≤ cap)%N →
        r = Some (stored budget rs kp v) ∧ sh_iter s' ≡ₚ (kp, stored budget rs kp v) :: sh_iter s)).
Proof.
  intros P LW budget ghosts cap h os s rs k w s' o H He. destruct (history_step LW _ _ _ _ _ _ _ _ _ H He) as (Hs & HI & Hd).
  pose proof (st_inv _ _ _ _ Hs) as HI'. unfold u_peek. rewrite (sh_peek_spec LW s k HI), (sh_peek_spec LW s' k HI'). simpl in Hd.
  destruct (value_of k (sh_iter s)) as [v0|] eqn:Hv; [destruct Hd as [Hp ->]|destruct w as [v|]; [|destruct Hd as [Hp ->]]].
  - split_and!; try done. by intros v [= ->].
  - destruct Hd as (kp & es & rs' & Hk & Hl & ->). split_and!; try done. intros v1 _ [= <-].
    exists (value_of k (sh_iter s')), kp. split_and!; try done.
    + intros Hr. pose proof (loads_refused _ _ _ _ _ _ _ _ _ Hl Hr) as Hp. split; [|done]. unfold value_of in *.
      by rewrite (find_key_perm LW k _ _ (inv_ukeys LW _ HI') Hp).
    + intros Hr Hfit. destruct (loads_fits _ _ _ _ _ _ _ _ _ Hl Hr Hfit) as [Hp _]. split; [|done].
      apply (value_in LW _ _ _ (inv_ukeys LW _ HI')). exists kp. split; [|done]. rewrite Hp. by left.
  - split_and!; try done.
Qed.
Print Assumptions C23_get_or_insert_with.
Example C23_example :
  (λ o, (o_ret o, o_called o)) <$> outs_of 10 3 14 [CGetOrInsert (P:=W) 0 1 None; CGetOrInsert (P:=W) 0 1 (Some 3); CGetOrInsert (P:=W) 0 1 (Some 4); CGetOrInsert (P:=W) 0 2 (Some 11)]%N =
  [(RErr, true); (RVal (P:=W) (Some 3), true); (RVal (P:=W) (Some 3), false); (RVal (P:=W) None, true)]%N.
Proof. vm_compute. done. Qed.

(* ---- C24 ---- *)
(* get_ref_or_guard and get_mut_or_guard give the value exactly when the key is cached, and a
   guard otherwise. Inserting through the guard loads the value like C23 says; dropping or
   forgetting it changes nothing. *)
Theorem C24_guards : ∀ (P : Params), Lawful P → ∀ budget ghosts cap (h : list (cmd P)) os s m rs k g f s' o,
  history budget ghosts cap h os s → m = CRefOrGuard rs k g ∨ m = CMutOrGuard rs k f g → exec s m = Ok (s', o) →
  (∀ v, u_peek s k = Ok (Some v) → o = plain (RVal (Some v)) ∧
     sh_iter s' ≡ₚ match m with CMutOrGuard _ _ _ _ => upd k f (sh_iter s) | _ => sh_iter s end) ∧
  (u_peek s k = Ok None → o_ret o = RGuard ∧ o_called o = false ∧
     match g with
     | GInsert v wl => ∃ kp, keqb P k kp = true ∧
         (refused budget rs kp v → sh_iter s' ≡ₚ sh_iter s) ∧
         (¬ refused budget rs kp v → (wsum (sh_iter s) + weight P kp (stored budget rs kp v) ≤ cap)%N →
            u_peek s' k = Ok (Some (stored budget rs kp v)) ∧ sh_iter s' ≡ₚ (kp, stored budget rs kp v) :: sh_iter s)
     | GDrop | GForget => sh_iter s' ≡ₚ sh_iter s ∧ u_peek s' k = Ok None ∧ o_log o = []
     end).
Proof.
  intros P LW budget ghosts cap h os s m rs k g f s' o H Hm He. destruct (history_step LW _ _ _ _ _ _ _ _ _ H He) as (Hs & HI & Hd).
  pose proof (st_inv _ _ _ _ Hs) as HI'. unfold u_peek. rewrite (sh_peek_spec LW s k HI), (sh_peek_spec LW s' k HI').
  assert (guards cap budget (sh_iter s) rs k g o (sh_iter s') → value_of k (sh_iter s) = None →
    o_ret o = RGuard ∧ o_called o = false ∧
     match g with
     | GInsert v wl => ∃ kp, keqb P k kp = true ∧
         (refused budget rs kp v → sh_iter s' ≡ₚ sh_iter s) ∧
         (¬ refused budget rs kp v → (wsum (sh_iter s) + weight P kp (stored budget rs kp v) ≤ cap)%N →
            Ok (value_of k (sh_iter s')) = Ok (Some (stored budget rs kp v)) ∧ sh_iter s' ≡ₚ (kp, stored budget rs kp v) :: sh_iter s)
     | GDrop | GForget => sh_iter s' ≡ₚ sh_iter s ∧ Ok (value_of k (sh_iter s')) = Ok None ∧ o_log o = []
     end) as Hg.
  { intros Hgu Hv. assert (sh_iter s' ≡ₚ sh_iter s → value_of k (sh_iter s') = None) as Hn.
    { intros Hp. unfold value_of in *. by rewrite (find_key_perm LW k _ _ (inv_ukeys LW _ HI') Hp). }
    destruct g as [v wl| |]; simpl in Hgu.
    - destruct Hgu as (kp & es & rs' & Hk & Hl & ->). split_and!; try done. exists kp. split; [done|]. split.
      + apply (loads_refused _ _ _ _ _ _ _ _ _ Hl).
      + intros Hr Hfit. destruct (loads_fits _ _ _ _ _ _ _ _ _ Hl Hr Hfit) as [Hp _]. split; [|done]. f_equal.
        apply (value_in LW _ _ _ (inv_ukeys LW _ HI')). exists kp. split; [|done]. rewrite Hp. by left.
    - destruct Hgu as [Hp ->]. split_and!; try done. by rewrite Hn.
    - destruct Hgu as [Hp ->]. split_and!; try done. by rewrite Hn. }
  destruct Hm as [-> | ->]; simpl in Hd; destruct (value_of k (sh_iter s)) as [v0|] eqn:Hv.
  - destruct Hd as [Hp ->]. split; [by intros v [= ->]|done].
  - split; [done|]. intros _. by apply Hg.
  - destruct Hd as [Hp ->]. split; [by intros v [= ->]|done].
  - split; [done|]. intros _. by apply Hg.
Qed.
Print Assumptions C24_guards.
Example C24_example :
  o_ret <$> outs_of 10 3 14 [CRefOrGuard (P:=W) 0 1 GDrop; CMutOrGuard (P:=W) 0 1 (λ v, v + 1) (GInsert (P:=W) 3 true); CMutOrGuard (P:=W) 0 1 (λ v, v + 1) GDrop; CRefOrGuard (P:=W) 0 1 GDrop]%N =
  [RGuard; RGuard; RVal (P:=W) (Some 3); RVal (P:=W) (Some 4)]%N.
Proof. vm_compute. done. Qed.

(* ---- C25 ---- *)
(* A change through get_mut or peek_mut (the reference is dropped afterwards): the key has the
   new value, the other items are unchanged, and weight() is adjusted by exactly the
   difference. *)
Theorem C25_mutation_exact : ∀ (P : Params), Lawful P → ∀ budget ghosts cap (h : list (cmd P)) os s m k f s' o,
  history budget ghosts cap h os s → m = CGetMut k f ∨ m = CPeekMut k f → exec s m = Ok (s', o) →
  match find_key k (sh_iter s) with
  | None => sh_iter s' ≡ₚ sh_iter s ∧ o = plain (RVal None)
  | Some (ko, vo) => o = plain (RVal (Some vo)) ∧ u_peek s' k = Ok (Some (f vo)) ∧
      (∀ k' v', keqb P k k' = false → (k', v') ∈ sh_iter s' ↔ (k', v') ∈ sh_iter s) ∧
      (∀ w w', sh_weight s = Ok w → sh_weight s' = Ok w' → (w' + weight P ko vo = w + weight P ko (f vo))%N)
  end.
Proof.
  intros P LW budget ghosts cap h os s m k f s' o H Hm He. destruct (history_step LW _ _ _ _ _ _ _ _ _ H He) as (Hs & HI & Hd).
  pose proof (st_inv _ _ _ _ Hs) as HI'.
  assert (sh_iter s' ≡ₚ Spec.upd k f (sh_iter s) ∧ o = plain (RVal (value_of k (sh_iter s)))) as [Hp ->] by (by destruct Hm as [-> | ->]).
  destruct (find_key k (sh_iter s)) as [[ko vo]|] eqn:Hf.
  - pose proof (wsum_upd_exact LW k f _ _ _ (inv_ukeys LW _ HI) Hf) as Hw. pose proof Hf as [Hin Hk]%find_key_Some. split_and!.
    + unfold value_of. by rewrite Hf.
    + unfold u_peek. rewrite (sh_peek_spec LW s' k HI'). f_equal. apply (value_in LW _ _ _ (inv_ukeys LW _ HI')). exists ko. split; [|done].
      rewrite Hp. apply upd_elem. exists vo. split; [done|]. by left.
    + intros k' v' Hk'. rewrite Hp, upd_elem. split.
      * intros (v0 & Hv0 & [[? _]|[_ ->]]); [congruence|done].
      * intros Hi. exists v'. split; [done|]. by right.
    + intros w w'. rewrite (weight_exact s HI), (weight_exact s' HI'). do 2 (destruct (_ <? _)%N; [|done]). intros [= <-] [= <-]. by rewrite Hp.
  - unfold value_of. rewrite Hf. split; [|done]. by rewrite (upd_none k f _ Hf) in Hp.
Qed.
Print Assumptions C25_mutation_exact.
Example C25_example : match exec (state_of 10 3 14 mixed) (CGetMut (P:=H) 11%N (λ v, v + 30)%N) with
  | Ok (s', o) => sh_iter s' = [(3, 0); (11, 35); (100, 5)]%N ∧ sh_weight s' = Ok 40%N | Fail _ => False end.
Proof. vm_compute. done. Qed.

(* ---- C26 ---- *)
(* get and get_mut count one hit or one miss, and correctly; no call that does not look up
   counts anything; hits and misses together are the number of lookups. *)
Theorem C26_get_counts : ∀ (P : Params), Lawful P → ∀ budget ghosts cap (h : list (cmd P)) os s m s' o,
  history budget ghosts cap h os s → exec s m = Ok (s', o) →
  (∀ k f, m = CGet k ∨ m = CGetMut k f →
     if has k (sh_iter s) then sh_hits s' = (sh_hits s + 1)%N ∧ sh_misses s' = sh_misses s
     else sh_hits s' = sh_hits s ∧ sh_misses s' = (sh_misses s + 1)%N) ∧
  (counted m = false → sh_hits s' = sh_hits s ∧ sh_misses s' = sh_misses s).
Proof.
  intros P LW budget ghosts cap h os s m s' o H He. destruct (history_step LW _ _ _ _ _ _ _ _ _ H He) as (Hs & HI & Hd).
  pose proof (st_stats _ _ _ _ Hs) as Hst. split.
  - intros k f [-> | ->]; simpl in Hst; unfold stats, tick in Hst; destruct (has k (sh_iter s)); by injection Hst.
  - intros Hm. destruct m; try done; simpl in Hst; unfold stats in Hst; by injection Hst.
Qed.
Print Assumptions C26_get_counts.
Theorem C26_total_is_lookups : ∀ (P : Params), Lawful P → ∀ budget ghosts cap (h : list (cmd P)) os s,
  history budget ghosts cap h os s → (sh_hits s + sh_misses s = N.of_nat (length (List.filter counted h)))%N.
Proof. intros P LW budget ghosts cap h os s H. by eapply (history_stats LW). Qed.
Print Assumptions C26_total_is_lookups.
(* the calls that may load count a hit exactly when the key is cached, provided no earlier load
   was left pending by a failed closure or a forgotten guard *)
Theorem C26_loads_count : ∀ (P : Params), Lawful P → ∀ budget ghosts cap (h : list (cmd P)) os s m k s' o,
  history budget ghosts cap h os s → exec s m = Ok (s', o) → Forall (λ m, strands m = false) h →
  match m with CGetOrInsert _ k' _ | CGetMutOrInsert _ k' _ _ | CRefOrGuard _ k' _ | CMutOrGuard _ k' _ _ => k' = k | _ => False end →
  if has k (sh_iter s) then sh_hits s' = (sh_hits s + 1)%N ∧ sh_misses s' = sh_misses s
  else sh_hits s' = sh_hits s ∧ sh_misses s' = (sh_misses s + 1)%N.
Proof.
  intros P LW budget ghosts cap h os s m k s' o H He Hz Hm. destruct (history_step LW _ _ _ _ _ _ _ _ _ H He) as (Hs & HI & Hd).
  pose proof (history_nopending LW _ _ _ _ _ _ Hz H k) as Hnp.
  assert (∃ b, stats s' = tick b (stats s) ∧ (b = true ↔ has k (sh_iter s) = true ∨ pending s k)) as (b & Hb & Hiff).
  { pose proof (st_stats _ _ _ _ Hs) as Hst. destruct m; try done; by subst. }
  assert (b = has k (sh_iter s)) as <-. { destruct (has k (sh_iter s)); destruct b; naive_solver. }
  unfold stats, tick in Hb. destruct b; by injection Hb.
Qed.
Print Assumptions C26_loads_count.
(* without that proviso it is false: a pending load counts as a hit although nothing is cached *)
Theorem C26_loads_count_refuted : ∃ (P : Params), Lawful P ∧ ∃ budget ghosts cap (h : list (cmd P)) os s rs k w s' o,
  history budget ghosts cap h os s ∧ exec s (CGetOrInsert rs k w) = Ok (s', o) ∧
  sh_iter s = [] ∧ sh_iter s' = [] ∧ sh_hits s' = (sh_hits s + 1)%N.
Proof.
  exists W. split; [exact lawW|]. exists 9%N, 3%N, 10%N, [CGetOrInsert (P:=W) 0%N 1%N None].
  eexists _, _, 0%N, 1%N, None, _, _. split; [vm_compute; reflexivity|]. split; [vm_compute; reflexivity|]. split_and!; vm_compute; reflexivity.
Qed.
Print Assumptions C26_loads_count_refuted.
Example C26_example : let s := state_of 10 3 14 mixed in (sh_hits s, sh_misses s) = (2, 3)%N.
Proof. vm_compute. done. Qed.

(* ---- C42 ---- *)
(* insert, replace and the completion of a load open one request; its state goes through all
   hooks and then, once, to end_request (or to the caller of a with_lifecycle method). A
   replace that fails does not close its request. *)
Theorem C42_insert_request : ∀ (P : Params), Lawful P → ∀ budget ghosts cap (h : list (cmd P)) os s rs k v wl s' o,
  history budget ghosts cap h os s → exec s (CInsert rs k v wl) = Ok (s', o) → bracketed rs wl o.
Proof.
  intros P LW budget ghosts cap h os s rs k v wl s' o H He. destruct (history_step LW _ _ _ _ _ _ _ _ _ H He) as (_ & _ & Hd).
  destruct Hd as (es & rs' & Hi & ->). by eapply bracketed_reply, inserts_threads.
Qed.
Print Assumptions C42_insert_request.
Theorem C42_replace_request : ∀ (P : Params), Lawful P → ∀ budget ghosts cap (h : list (cmd P)) os s rs k v soft wl s' o,
  history budget ghosts cap h os s → exec s (CReplace rs k v soft wl) = Ok (s', o) →
  (o_ret o = RPair None → bracketed rs wl o) ∧
  (o_ret o ≠ RPair None → o_log o = LBegin rs :: (LHook <$> hooks_of o) ∧ o_state o = None ∧ ∃ rs', threads rs (hooks_of o) rs').
Proof.
  intros P LW budget ghosts cap h os s rs k v soft wl s' o H He. destruct (history_step LW _ _ _ _ _ _ _ _ _ H He) as (_ & _ & Hd).
  destruct Hd as (es & rs' & b & Hi & ->). pose proof (inserts_threads _ _ _ _ _ _ _ _ _ _ _ Hi) as Ht. destruct b as [kv|].
  - split; [done|]. intros _. rewrite hooks_of_begin. eauto.
  - split; [|done]. intros _. by apply bracketed_reply.
Qed.
Print Assumptions C42_replace_request.
(* every other call either opens no request, or completes a load *)
Theorem C42_load_request : ∀ (P : Params), Lawful P → ∀ budget ghosts cap (h : list (cmd P)) os s m s' o,
  history budget ghosts cap h os s → exec s m = Ok (s', o) →
  match m with
  | CInsert _ _ _ _ | CReplace _ _ _ _ _ => True
  | CGetOrInsert rs k (Some _) | CGetMutOrInsert rs k (Some _) _ =>
      if has k (sh_iter s) then o_log o = [] ∧ o_state o = None else bracketed rs false o
  | CRefOrGuard rs k (GInsert _ wl) | CMutOrGuard rs k _ (GInsert _ wl) =>
      if has k (sh_iter s) then o_log o = [] ∧ o_state o = None else bracketed rs wl o
  | _ => o_log o = [] ∧ o_state o = None
  end.
Proof.
  intros P LW budget ghosts cap h os s m s' o H He. destruct (history_step LW _ _ _ _ _ _ _ _ _ H He) as (_ & _ & Hd).
  assert (∀ k, has k (sh_iter s) = match value_of k (sh_iter s) with Some _ => true | None => false end) as Hh.
  { intros k. unfold has, value_of. by destruct (find_key k (sh_iter s)). }
  destruct m as [k|k|k|k f|k f|k|rs k v soft wl|rs k v wl|f| | | |rs k w|rs k w f|rs k g|rs k f g]; simpl in Hd; try done;
    try (destruct Hd as [_ ->]; done); try (destruct Hd as (_ & l & _ & ->); done);
    rewrite ?Hh; [destruct w as [w|]|destruct w as [w|]|destruct g as [w wl| |]|destruct g as [w wl| |]]; destruct (value_of k (sh_iter s));
    try (by destruct Hd as [_ ->]); simpl in Hd; try (by destruct Hd as [_ ->]).
  - destruct Hd as (kp & es & rs' & _ & Hl & ->). by eapply bracketed_reply, loads_threads.
  - destruct Hd as (kp & es & rs' & c1 & _ & Hl & _ & ->). by eapply bracketed_reply, loads_threads.
  - destruct Hd as (kp & es & rs' & _ & Hl & ->). by eapply bracketed_reply, loads_threads.
  - destruct Hd as (kp & es & rs' & _ & Hl & ->). by eapply bracketed_reply, loads_threads.
Qed.
Print Assumptions C42_load_request.
(* a request whose state goes through a replacement and an eviction *)
Example C42_example :
  match exec (state_of 10 3 14 (take 18 mixed)) (ins (P:=H) 5 100 9)%N with
  | Ok (s', o) => o_log o = [LBegin (P:=H) 5; LHook (EvEvict (P:=H) 100 5); LHook (EvBefore (P:=H) 2 1 1); LHook (EvEvict (P:=H) 2 1);
      LHook (EvBefore (P:=H) 10 5 5); LHook (EvEvict (P:=H) 10 5); LEnd (P:=H) 3007]%N | Fail _ => False end.
Proof. vm_compute. done. Qed.
