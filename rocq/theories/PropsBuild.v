(* Properties C43 and C44: debug and release builds, and user code that breaks its contract.
   Everywhere else the debug build is meant. *)
From Verif Require Import Reach SeqProofs4 SyncSeq Builds Demo DemoSync.

(* ---- C43 ---- *)
(* Whatever history the debug build completes, the release build completes with the same results
   and leaves the same cache. *)
Theorem C43_release_agrees : ∀ (P : Params) budget ghosts cap (h : list (cmd P)) os s,
  history budget ghosts cap h os s → run (B:=release) (sh_new budget ghosts cap) h = Ok (s, os).
Proof. intros P budget ghosts cap h os s H. exact (kept_ok _ _ _ (kept_run _ _) H). Qed.
Print Assumptions C43_release_agrees.
Theorem C43_release_agrees_sync : ∀ (P : Params) budget ghosts cap e (h : list (scmd P)) os c,
  s_history budget ghosts cap e h os c → sc_run (B:=release) (sc_fresh budget ghosts cap (2 ^ e)) h = Ok (c, os).
Proof. intros P budget ghosts cap e h os c [_ H]. exact (kept_ok _ _ _ (kept_sc_run _ _) H). Qed.
Print Assumptions C43_release_agrees_sync.
(* No debug assertion ever fails and no counter ever underflows: the builds differ only on
   histories in which the sum of the weights overflows 64 bits. *)
Theorem C43_differs_only_on_overflow : ∀ (P : Params), Lawful P → ∀ budget ghosts cap (h : list (cmd P)),
  run (B:=release) (sh_new budget ghosts cap) h ≠ run (B:=debug) (sh_new budget ghosts cap) h →
  ∃ h1 m h2 os s, h = h1 ++ m :: h2 ∧ history budget ghosts cap h1 os s ∧ may_overflow cap budget (sh_iter s) m.
Proof.
  intros P LW budget ghosts cap h Hne. destruct (kept_run (P:=P) (sh_new budget ghosts cap) h) as [H|[H|H]]; [| |done].
  - by destruct (history_fail LW _ _ _ _ _ H) as (h1 & m & h2 & os & s & _ & _ & []).
  - destruct (history_fail LW _ _ _ _ _ H) as (h1 & m & h2 & os & s & ? & ? & ?). by exists h1, m, h2, os, s.
Qed.
Print Assumptions C43_differs_only_on_overflow.
(* The release build runs the long history of Demo.v, with evictions, guards and a retain; and
   a history on which the builds do differ: the second insert overflows. *)
Example C43_example :
  (∃ s os, run_of (P:=H) 12 4 16 mixed = Some (s, os) ∧ 3 ≤ length (sh_iter s)) ∧
  (let h := [ins (P:=W) 0 1 (two64 - 1); ins (P:=W) 0 2 5]%N in let s := sh_new (two64 - 1) 0 (two64 - 1) in
   run s h = Fail WeightOvf ∧ is_Some (match run (B:=release) s h with Ok x => Some x | Fail _ => None end)).
Proof.
  split.
  - eexists _, _. split; [by vm_compute|]. vm_compute. lia.
  - split; [by vm_compute|]. vm_compute. eauto.
Qed.

(* ---- C44 ---- *)
(* Whatever the user's Eq, Hash, Weighter and Lifecycle answer, on any state of the cache,
   whether a sequence of calls can lead to it or not, and in both builds: no call reaches the
   unreachable_unchecked calls of the code. *)
Theorem C44_no_undefined_behaviour : ∀ (P : Params) (B : Build) (s : shard P) (h : list (cmd P)),
  run s h ≠ Fail UB.
Proof. intros. apply safe_run. Qed.
Print Assumptions C44_no_undefined_behaviour.
Theorem C44_no_undefined_behaviour_sync : ∀ (P : Params) (B : Build) (c : scache P) (h : list (scmd P)),
  sc_run c h ≠ Fail UB.
Proof. intros. apply safe_sc_run. Qed.
Print Assumptions C44_no_undefined_behaviour_sync.
(* the critical sections the threads of the sync cache run, one at a time *)
Theorem C44_no_undefined_behaviour_section : ∀ (P : Params) (B : Build) (s : shard P) (x : sect P),
  xexec s x ≠ Fail UB.
Proof. intros. apply safe_xexec. Qed.
Print Assumptions C44_no_undefined_behaviour_section.
(* Keys equal to everything, whatever their hash: a lawless Eq. The cache stays usable. And a
   table entry that points nowhere makes a call panic, no more. *)
Definition lawless : Params := {|
  K := N; V := N; RS := N; keqb := λ _ _, true; hash := λ k, k; weight := λ _ v, v; pinned := λ _ _, false;
  before_evict := λ rs _ v, (rs, v); on_evict := λ rs _ _, rs; probe := λ T _, (tpairs T).*2; titer := λ T, (tpairs T).*2;
  grows := λ _, true; ptr_ids := false |}.
Example C44_example :
  ¬ Lawful lawless ∧
  is_Some (run_of (P:=lawless) 3 2 4 [ins (P:=lawless) 0 1 2; ins (P:=lawless) 0 2 2; CGet (P:=lawless) 5; CRemove (P:=lawless) 7;
    ins (P:=lawless) 0 3 3; ins (P:=lawless) 0 4 3]%N) ∧
  run (P:=U) (set_map (sh_new 3 2 4) (Table [(1%N, 7)] 0)) [CGet (P:=U) 1%N] = Fail Panic.
Proof.
  split; [|split; [vm_compute; eauto|by vm_compute]].
  intros LW. by pose proof (hash_keqb _ LW 1%N 2%N eq_refl).
Qed.
