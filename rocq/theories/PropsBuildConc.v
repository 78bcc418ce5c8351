(* Properties C43 and C44 for the sync cache used by many threads and futures: debug and release
   builds, and user code that breaks its contract. *)
From stdpp Require Import prelude list.
From Verif Require Import ConcTime BuildsConc DemoConc.

(* ---- C43 ---- *)
(* Whatever execution the debug build completes, the release build completes in the same steps, and
   it leaves the same cache, the same guards and the same waiters. *)
Theorem C43_release_agrees_concurrent : ∀ (P : Params) dbg budget ghosts cap e ls (y : sys P),
  execution dbg budget ghosts cap e ls y → steps (B:=release) dbg (sys_new budget ghosts cap e) ls y.
Proof. intros P dbg budget ghosts cap e ls y. apply release_steps. Qed.
Print Assumptions C43_release_agrees_concurrent.
(* And the release build has no other executions, except those that go on where the sum of the
   weights of a shard overflows 64 bits, at which the debug build panics. *)
Theorem C43_differs_only_on_overflow_concurrent : ∀ (P : Params), Lawful P → ptr_ids P = true → ∀ dbg budget ghosts cap e ls (y : sys P),
  steps (B:=release) dbg (sys_new budget ghosts cap e) ls y →
  execution dbg budget ghosts cap e ls y ∨
  ∃ ls1 lb ls2 y1, ls = ls1 ++ lb :: ls2 ∧ execution dbg budget ghosts cap e ls1 y1 ∧
    cstep dbg y1 lb = Some (Fail WeightOvf) ∧ runs_out budget cap y1 lb WeightOvf.
Proof.
  intros P LW PI dbg budget ghosts cap e ls y H. remember (sys_new budget ghosts cap e) as y0 eqn:E. induction H as [y0|y0 ls y1 lb y2 H IH Hs]; subst.
  - left. constructor.
  - destruct (IH eq_refl) as [He|(l1 & lb' & l2 & z & -> & Hz)]; [|right; exists l1, lb', (l2 ++ [lb]), z; by rewrite <-app_assoc].
    destruct (ginv LW PI _ _ _ He) as [HR _]. destruct (debug_step _ _ _ _ Hs) as [Hd|[Hd|Hd]].
    + left. by eapply st_snoc.
    + by destruct (fails_spelled LW PI _ _ _ _ HR Hd) as (? & ? & ? & ? & _ & _ & _ & [[? _]|[? _]]).
    + right. exists ls, lb, [], y1. split_and!; [done|done|done|]. exact (fails_spelled LW PI _ _ _ _ HR Hd).
Qed.
Print Assumptions C43_differs_only_on_overflow_concurrent.
(* four agents share a load in both builds; and two inserts of which the second overflows *)
Definition two_inserts : list (label W) :=
  [Spawn (KCmd (ins (P:=W) 0%N 1%N (two64 - 1)%N)); Go 0; Go 0; Spawn (KCmd (ins (P:=W) 0%N 2%N 5%N)); Go 1; Go 1].
Example C43_example_concurrent :
  steps (B:=release) true (sys_new 10 3 14 1) (on_ls x_load) (on x_load) ∧ 60 ≤ length (on_ls x_load) ∧
  (∃ y, steps (B:=release) false (sys_new (two64 - 1) 0 (two64 - 1) 0) two_inserts y) ∧
  (∃ y, execution false (two64 - 1) 0 (two64 - 1) 0 (take 5 two_inserts) y ∧ cstep false y (Go 1) = Some (Fail WeightOvf)).
Proof.
  split; [apply C43_release_agrees_concurrent, on_execution|]. split; [vm_compute; lia|]. split.
  - eexists. apply follow_steps. vm_compute. reflexivity.
  - eexists. split; [apply follow_steps; vm_compute; reflexivity|vm_compute; reflexivity].
Qed.

(* ---- C44 ---- *)
(* Whatever the user's Eq, Hash, Weighter and Lifecycle answer, in both builds, however many threads
   and futures use a cache in whatever state, in whatever order they are scheduled: nobody reaches
   the unreachable_unchecked calls of the code. *)
Theorem C44_no_undefined_behaviour_concurrent : ∀ (P : Params) (B : Build) dbg (c : scache P) ls y lb,
  steps (B:=B) dbg (Sys c (λ _, pst_new) [] 0 []) ls y → cstep (B:=B) dbg y lb ≠ Some (Fail UB).
Proof.
  intros P B dbg c ls y lb H Hs. by apply (safe_cstep _ _ _ _ (lk_steps _ _ _ _ (lk_start (Sys c (λ _, pst_new) [] 0 []) eq_refl) H) Hs).
Qed.
Print Assumptions C44_no_undefined_behaviour_concurrent.
(* Nor can two of them be at work on the same shard, the same load or the same waiter, unless both
   only hold it for reading. *)
Theorem C44_locks_exclude : ∀ (P : Params) (B : Build) dbg (c : scache P) ls y a b ag bg l m m',
  steps (B:=B) dbg (Sys c (λ _, pst_new) [] 0 []) ls y → a ≠ b → y_agents y !! a = Some ag → y_agents y !! b = Some bg →
  (l, m) ∈ holds a (a_pc ag) → (l, m') ∈ holds b (a_pc bg) → m = MR ∧ m' = MR.
Proof.
  intros P B dbg c ls y a b ag bg l m m' H Hne Ha Hb Hl Hl'. pose proof (lk_steps _ _ _ _ (lk_start (Sys c (λ _, pst_new) [] 0 []) eq_refl) H) as HL.
  pose proof (lk_excl _ HL a b (a_pc ag) (a_pc bg) Hne ltac:(by rewrite pcs_at, Ha) ltac:(by rewrite pcs_at, Hb) _ _ Hl Hl') as Hc.
  unfold compat in Hc. simpl in Hc. rewrite decide_True in Hc by done. by destruct m, m'.
Qed.
Print Assumptions C44_locks_exclude.
(* Keys equal to everything, whatever their hash, and placeholders equal to each other: three
   agents load, insert and get at the same time. *)
Definition lawless_sync : Params := {|
  K := N; V := N; RS := N; keqb := λ _ _, true; hash := λ k, k; weight := λ _ v, v; pinned := λ _ _, false;
  before_evict := λ rs _ v, (rs, v); on_evict := λ rs _ _, rs; probe := λ T _, (tpairs T).*2; titer := λ T, (tpairs T).*2;
  grows := λ _, true; ptr_ids := false |}.
Definition x_lawless : list (script lawless_sync) :=
  let ld k := L (Spawn (P:=lawless_sync) (KLoad (P:=lawless_sync) k None)) in
  [ ld 5%N; Run 0; ld 7%N; Run 1; call_ (P:=lawless_sync) (KCmd (CInsert (P:=lawless_sync) 0%N 9%N 3%N false)); Run 2;
    L (PutG (P:=lawless_sync) 0 0%N 6%N false); Run 0; Run 1; call_ (P:=lawless_sync) (KCmd (CGet (P:=lawless_sync) 1%N)); L (Go 3); L (Go 3) ].
Example C44_example_concurrent : ¬ Lawful lawless_sync ∧
  (1, EvRet (P:=lawless_sync) (RetVal (P:=lawless_sync) 6%N (Some (0, 0%N)))) ∈ y_log (on x_lawless) ∧
  (∃ ag, y_agents (on x_lawless) !! 3 = Some ag ∧ ∃ i, a_pc ag = GBump (P:=lawless_sync) 0 i 3%N CRet ∧ (LShard 0, MR) ∈ holds 3 (a_pc ag)).
Proof.
  split; [intros LW; by pose proof (hash_keqb _ LW 1%N 2%N eq_refl)|]. split; [is_at 15|].
  eexists. split; [vm_compute; reflexivity|]. eexists. split; [vm_compute; reflexivity|]. apply elem_of_list_here.
Qed.
