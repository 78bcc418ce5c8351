(* Property C60: a cache that is large enough is a map. *)
From Verif Require Import Reach MapProofs DemoConc PropsSeqB PropsConcB.

(* ---- C60 ---- *)
(* If everything a history of calls stores has room, the cache ends with the pairs a plain map ends
   with, every call returned what it returns on a map, and the only hook calls are the ones for the
   values that were overwritten. *)
Theorem C60_map : ∀ (P : Params), Lawful P → same_keys (P:=P) →
  ∀ budget ghosts cap (h : list (cmd P)) (os : list (out P)) (s : shard P),
  history budget ghosts cap h os s → all_fit cap budget h →
  sh_iter s ≡ₚ map_after [] h ∧ length os = length h ∧
  ∀ h1 m h2 o, h = h1 ++ m :: h2 → os !! length h1 = Some o →
    agree (o_ret o) (map_exec (map_after [] h1) m).1 ∧ hooks_of o = overwrites (map_after [] h1) m.
Proof. intros P LW ST budget ghosts cap h os s. apply (map_history LW ST). Qed.
Print Assumptions C60_map.
(* It has room when no value weighs more than W, which the budget admits, and the keys that are
   brought along are among so few that all of them, at this weight, fit. *)
Theorem C60_few_keys : ∀ (P : Params), Lawful P → same_keys (P:=P) → ∀ budget cap W (ks : list (K P)) (h : list (cmd P)),
  (∀ k v, weight P k v ≤ W)%N → (W ≤ budget)%N → (N.of_nat (length ks) * W ≤ cap)%N →
  (∀ m k, m ∈ h → brings m = Some k → k ∈ ks) → all_fit cap budget h.
Proof. intros P LW ST budget cap W ks h. apply (few_fit LW ST). Qed.
Print Assumptions C60_few_keys.
(* Both, for a cache of items: if every item weighs one, nothing is pinned, and no more than cap keys
   are ever brought along, then every history of calls succeeds and does what it does on a map. *)
Theorem C60_items : ∀ (P : Params), Lawful P → same_keys (P:=P) → (∀ k v, weight P k v = 1%N) → (∀ k v, pinned P k v = false) →
  ∀ budget ghosts cap (ks : list (K P)) (h : list (cmd P)),
  (1 ≤ budget)%N → (budget ≤ cap)%N → (cap + ghosts + abandoned h + 2 < two32)%N →
  (N.of_nat (length ks) ≤ cap)%N → (∀ m k, m ∈ h → brings m = Some k → k ∈ ks) →
  ∃ s os, history budget ghosts cap h os s ∧ sh_iter s ≡ₚ map_after [] h ∧ length os = length h ∧
  ∀ h1 m h2 o, h = h1 ++ m :: h2 → os !! length h1 = Some o →
    agree (o_ret o) (map_exec (map_after [] h1) m).1 ∧ hooks_of o = overwrites (map_after [] h1) m.
Proof.
  intros P LW ST HW HP budget ghosts cap ks h Hb1 Hb2 H32 Hks Hk.
  destruct (C11_bounded_caches_never_abort P LW budget ghosts cap h) as (s & os & H); [done|intros k v; by rewrite HW| |done| |done|].
  - apply Forall_forall. intros m _. unfold no_growth. destruct (mutation m) as [[k f]|]; [|done]. intros k' v _. by rewrite !HW.
  - unfold two32, two64 in *. lia.
  - exists s, os. split; [done|]. apply (C60_map P LW ST _ _ _ _ _ _ H). apply (C60_few_keys P LW ST budget cap 1 ks h); [|done|lia|done].
    intros k v. by rewrite HW.
Qed.
Print Assumptions C60_items.
(* The same for each shard of the sync cache used by any number of threads and futures: the steps
   that took effect on it, in their order, are steps of a map with pending loads. *)
Theorem C60_concurrent : ∀ (P : Params), Lawful P → same_keys (P:=P) → ptr_ids P = true →
  ∀ dbg budget ghosts cap e ls (y : sys P) j s,
  execution dbg budget ghosts cap e ls y → sc_shards (y_cache y) !! j = Some s →
  secs_fit cap budget (sections j (y_log y)) →
  ∃ d, map_secs (sections j (y_log y)) d ∧ sh_iter s ≡ₚ ss_items d.
Proof.
  intros P LW ST PI dbg budget ghosts cap e ls y j s HE Hs HF.
  destruct (C39_linearizable P LW PI _ _ _ _ _ _ _ _ _ HE Hs) as (a & HL & <-).
  destruct (map_legal LW ST _ _ _ _ HL HF) as (d & H1 & H2 & _). by exists d.
Qed.
Print Assumptions C60_concurrent.
Theorem C60_concurrent_few_keys : ∀ (P : Params), Lawful P → same_keys (P:=P) →
  ∀ budget cap W (ks : list (K P)) (g : list (sop P * sres P)),
  (∀ k v, weight P k v ≤ W)%N → (W ≤ budget)%N → (N.of_nat (length ks) * W ≤ cap)%N →
  (∀ x r k, (x, r) ∈ g → sec_brings x = Some k → k ∈ ks) → secs_fit cap budget g.
Proof. intros P LW ST budget cap W ks g. apply (few_secs_fit LW ST). Qed.
Print Assumptions C60_concurrent_few_keys.

(* Three keys in a cache with room for three: inserted, changed, overwritten, loaded, removed,
   inserted again. *)
Definition tight : list (cmd U) :=
  [ ins (P:=U) 0 1 3; ins (P:=U) 0 2 4; CGetMut (P:=U) 2 (λ v, v + 1); CGetOrInsert (P:=U) 0 5 (Some 6); CReplace (P:=U) 0 1 8 false false;
    CRemove (P:=U) 2; CGet (P:=U) 2; CReplace (P:=U) 0 2 9 false false; CMutOrGuard (P:=U) 0 2 (λ v, v * 2) (GInsert (P:=U) 7 false);
    CGet (P:=U) 1; CMutOrGuard (P:=U) 0 2 (λ v, v * 2) (GInsert (P:=U) 7 false); CGet (P:=U) 2; CGet (P:=U) 5 ]%N.
Example C60_example : Lawful U ∧ same_keys (P:=U) ∧ history 3 3 3 tight (outs_of 3 3 3 tight) (state_of 3 3 3 tight) ∧ all_fit 3 3 tight ∧
  map_after [] tight = [(2, 14); (1, 8); (5, 6)]%N ∧
  (* in a cache with room for two the history does not fit, and the cache is not a map *)
  (∃ o, outs_of (P:=U) 2 2 2 tight !! 12 = Some o ∧ o_ret o = RVal (P:=U) None).
Proof.
  assert (same_keys (P:=U)) as HS by (intros k k' E; by apply N.eqb_eq in E).
  split; [apply inst_lawful|]. split; [done|]. split; [vm_compute; reflexivity|]. split.
  - apply (few_fit (inst_lawful _ _ _) HS 3 3 1 [1; 2; 5]%N); try done. intros m k Hin.
    unfold tight in Hin. repeat (apply elem_of_cons in Hin as [->|Hin]; [intros E; vm_compute in E; simplify_eq; set_solver|]).
    by apply elem_of_nil in Hin.
  - split; [vm_compute; reflexivity|]. eexists. split; [vm_compute; reflexivity|]. done.
Qed.
(* Two shards with room for fourteen items of weight one each; a load that two threads wait for
   while others insert, read and remove. *)
Definition SU : Params := sinst (λ _ _, 1)%N (λ _ _, false) (λ rs _ v, (rs, v)).
Definition x_roomy : list (script SU) :=
  [ load (P:=SU) 5%N None; Run 0; load (P:=SU) 5%N None; Run 1; call_ (P:=SU) (KCmd (CInsert (P:=SU) 0%N 3%N 7%N false)); Run 2;
    L (PutG (P:=SU) 0 0%N 6%N false); Run 0; Run 1; call_ (P:=SU) (KCmd (CGet (P:=SU) 3%N)); Run 3;
    call_ (P:=SU) (KCmd (CRemove (P:=SU) 3%N)); Run 4 ].
Example C60_example_concurrent : Lawful SU ∧ same_keys (P:=SU) ∧ ptr_ids SU = true ∧ execution true 10 3 14 1 (on_ls x_roomy) (on x_roomy) ∧
  length (sections 1 (y_log (on x_roomy))) = 8 ∧
  (∃ s, sc_shards (y_cache (on x_roomy)) !! 1 = Some s ∧ sh_iter s = [(5, 6)]%N) ∧ secs_fit 14 10 (sections 1 (y_log (on x_roomy))).
Proof.
  assert (same_keys (P:=SU)) as HS by (intros k k' E; by apply N.eqb_eq in E).
  split; [apply sinst_lawful|]. split; [done|]. split; [done|]. split; [apply (on_execution (P:=SU))|].
  split; [vm_compute; reflexivity|]. split; [eexists; split; vm_compute; reflexivity|].
  assert (sec_brings <$> (sections 1 (y_log (on x_roomy))).*1 = [None; Some 5%N; None; Some 5%N; Some 3%N; None; None; None]) as EE by (vm_compute; reflexivity).
  revert EE. generalize (sections 1 (y_log (on x_roomy))). intros g EE.
  apply (few_secs_fit (sinst_lawful _ _ _) HS 14 10 1 [3; 5]%N); [done..|]. intros x r k Hin E.
  assert (Some k ∈ sec_brings <$> g.*1) as HH.
  { rewrite <-E. apply elem_of_list_fmap_1. by apply (elem_of_list_fmap_1 fst g (x, r)). }
  rewrite EE in HH. repeat (apply elem_of_cons in HH as [HH|HH]; [try done; injection HH as ->; repeat constructor|]). by apply elem_of_nil in HH.
Qed.
