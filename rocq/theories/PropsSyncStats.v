(* C26 for the sync cache used by one thread at a time: hits() and misses(). What a call counts is
   in SyncCount.v. *)
From Verif Require Import SyncStats DemoSync.

(* hits() and misses() are what the calls so far counted, told from their results: nothing else
   counts, and clear() does not reset them. (The sums are u64 sums.) *)
Theorem C26_sync_statistics : ∀ (P : Params), Lawful P → ptr_ids P = true →
  ∀ budget ghosts cap e (h : list (scmd P)) os c, s_history budget ghosts cap e h os c →
  sc_hits c = (if (hits_of h os <? two64)%N then Ok (hits_of h os) else Fail WeightOvf) ∧
  sc_misses c = (if (misses_of h os <? two64)%N then Ok (misses_of h os) else Fail WeightOvf).
Proof.
  intros P LW PI budget ghosts cap e h os c H. destruct (history_tot LW PI _ _ _ _ _ _ _ H) as [H1 H2]. unfold tot in H1, H2.
  unfold sc_hits, sc_misses. by rewrite !sum64_eq, H1, H2.
Qed.
Print Assumptions C26_sync_statistics.

(* One would expect one hit or one miss for each lookup. A get_or_insert_with that loads counts two
   misses. *)
Theorem C26_sync_once_refuted : ∃ (P : Params), Lawful P ∧ ptr_ids P = true ∧
  ∃ budget ghosts cap e (h : list (scmd P)) os c, s_history budget ghosts cap e h os c ∧
  length h = 1 ∧ sc_hits c = Ok 0%N ∧ sc_misses c = Ok 2%N.
Proof.
  exists SW. split; [exact lawSW|]. split; [done|]. exists 6%N, 3%N, 8%N, 1%N, [SGetOrInsert (P:=SW) 0%N 6%N (Some 2%N)].
  eexists _, _. split; [split; [by repeat constructor|vm_compute; reflexivity]|]. split_and!; vm_compute; reflexivity.
Qed.
Print Assumptions C26_sync_once_refuted.

Example C26_sync_example : Lawful SH ∧ ptr_ids SH = true ∧
  s_history (P:=SH) 10%N 3%N 14%N 1%N smixed (souts_of 10 3 14 1 smixed) (sstate_of 10 3 14 1 smixed) ∧
  sc_hits (sstate_of 10 3 14 1 smixed) = Ok 2%N ∧ sc_misses (sstate_of 10 3 14 1 smixed) = Ok 8%N.
Proof.
  split; [exact lawSH|]. split; [done|]. split; [split; [exact smixed_api|vm_compute; reflexivity]|]. split; vm_compute; reflexivity.
Qed.
