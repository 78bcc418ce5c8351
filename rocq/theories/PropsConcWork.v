(* Property C59: the work of evictions in concurrent use. *)
From stdpp Require Import prelude list.
From Verif Require Import SyncCrashProofs ConcWorkProofs DemoConc.

(* ---- C59 ---- *)
(* The computations whose calls of user code are counted are those of the critical sections. *)
Theorem C59_same_program : ∀ (P : Params) (s : shard P),
  (∀ m, sync_cmd m = true → (inner s m).2 = exec s m) ∧
  (∀ k, (c_upsert_placeholder s (hash P k) k).2 = upsert_placeholder s (hash P k) k) ∧
  (∀ l p ref v, (c_replace_placeholder s l p ref v).2 = replace_placeholder s l p ref v).
Proof. intros P s. split; [intros; by apply er_inner|]. split; intros; [apply er_upsert|apply er_replace]. Qed.
Print Assumptions C59_same_program.
(* While nothing is pinned, in every execution with any number of threads and futures, evictions look
   at no more than five cached items for each time that a shard is used. *)
Theorem C59_amortized : ∀ (P : Params), Lawful P → ptr_ids P = true → (∀ k v, pinned P k v = false) →
  ∀ dbg budget ghosts cap e (ls : list (label P)) (y : sys P), execution dbg budget ghosts cap e ls y →
  (conc_effort looks dbg (sys_new budget ghosts cap e) ls ≤ 5 * uses (y_log y))%N.
Proof.
  intros P LW PI NP dbg budget ghosts cap e ls y H.
  pose proof (afforded_all LW PI NP looks 1 ltac:(by intros []) ltac:(done) ltac:(done) _ _ _ H) as Ha.
  unfold afforded, most in Ha. lia.
Qed.
Print Assumptions C59_amortized.
(* A call uses a shard once, or each shard once if it is a call on all of them, or, if it loads a value,
   three times at most. *)
Theorem C59_uses : ∀ (P : Params), Lawful P → ptr_ids P = true →
  ∀ dbg budget ghosts cap e (ls : list (label P)) (y : sys P), execution dbg budget ghosts cap e ls y →
  (uses (y_log y) ≤ calls_use e ls)%N.
Proof. intros P LW PI dbg budget ghosts cap e ls y H. exact (within_all LW PI looks 1 ltac:(done) ltac:(done) _ _ _ H). Qed.
Print Assumptions C59_uses.
(* So there is such a bound in terms of the calls that were started, too. *)
Theorem C59_calls : ∀ (P : Params), Lawful P → ptr_ids P = true → (∀ k v, pinned P k v = false) →
  ∀ dbg budget ghosts cap e (ls : list (label P)) (y : sys P), execution dbg budget ghosts cap e ls y →
  (conc_effort looks dbg (sys_new budget ghosts cap e) ls ≤ 5 * calls_use e ls)%N.
Proof.
  intros P LW PI NP dbg budget ghosts cap e ls y H. pose proof (C59_uses P LW PI _ _ _ _ _ _ _ H).
  pose proof (C59_amortized P LW PI NP _ _ _ _ _ _ _ H). lia.
Qed.
Print Assumptions C59_calls.
(* Nor do they call user code on behalf of these items more than fifteen times per use. *)
Theorem C59_user_code : ∀ (P : Params), Lawful P → ptr_ids P = true → (∀ k v, pinned P k v = false) →
  ∀ dbg budget ghosts cap e (ls : list (label P)) (y : sys P), execution dbg budget ghosts cap e ls y →
  (conc_effort handles dbg (sys_new budget ghosts cap e) ls ≤ 15 * uses (y_log y))%N.
Proof.
  intros P LW PI NP dbg budget ghosts cap e ls y H.
  pose proof (afforded_all LW PI NP handles 6 ltac:(done) ltac:(done) ltac:(done) _ _ _ H) as Ha.
  unfold afforded, most in Ha. lia.
Qed.
Print Assumptions C59_user_code.
(* The lock of a shard is never held for longer than this: the one critical section that a step runs
   looks at no more than four times the number of items in its shard, and five. *)
Theorem C59_one_section : ∀ (P : Params), Lawful P → ptr_ids P = true → (∀ k v, pinned P k v = false) →
  ∀ dbg budget ghosts cap e (ls : list (label P)) (y : sys P), execution dbg budget ghosts cap e ls y →
  ∀ a ag j z s, y_agents y !! a = Some ag → running (a_pc ag) = Some (j, z) → sc_shards (y_cache y) !! j = Some s →
  (count looks (sect_points s z) ≤ 4 * N.of_nat (length (sh_iter s)) + 5)%N.
Proof.
  intros P LW PI NP dbg budget ghosts cap e ls y H a ag j z s Ha Hr Hj.
  by apply (one_section_work LW PI NP looks 1 ltac:(by intros []) ltac:(done) ltac:(done) dbg ls y a ag j z s H).
Qed.
Print Assumptions C59_one_section.

(* Forty threads that insert into two shards that have room for five or so each, and in between two
   threads at a time that use the same item, under the lock of its shard for reading; a load. *)
Definition crowd : list (script SW) :=
  concat ((λ i, let n := (3 * i)%nat in let k := N.of_nat i in
    [ call_ (P:=SW) (KCmd (CInsert (P:=SW) 0%N k 2%N false)); Run n; call_ (P:=SW) (KCmd (CGet (P:=SW) k)); call_ (P:=SW) (KCmd (CGet (P:=SW) k));
      L (Go (n + 1)%nat); L (Go (n + 2)%nat); L (Go (n + 1)%nat); L (Go (n + 2)%nat); Run (n + 1)%nat; Run (n + 2)%nat ]) <$> seq 0 40) ++
  [ load (P:=SW) 99%N None; Run 120; L (PutG (P:=SW) 120 0%N 2%N false); Run 120 ].
Definition crowded : N * N * N :=
  let z := play (P:=SW) true (sys_new 10 3 14 1) crowd in
  (conc_effort looks true (sys_new 10 3 14 1) z.1, uses (y_log z.2), calls_use 1 z.1).
Example C59_example : Lawful SW ∧ ptr_ids SW = true ∧ (∀ k v, pinned SW k v = false) ∧
  execution true 10 3 14 1 (on_ls crowd) (on crowd) ∧
  (100 <=? crowded.1.1)%N = true ∧ crowded.1.2 = 123%N ∧ crowded.2 = 123%N.
Proof.
  split; [exact lawSW|]. split; [done|]. split; [done|]. split; [apply (on_execution (P:=SW))|].
  split_and!; vm_compute; reflexivity.
Qed.
