(* Property C57: panics in user code in the sync cache used by many threads and futures. Each theorem
   is about every execution of Conc.v with panics at the harmless points of C45, in any number. *)
From stdpp Require Import prelude list.
From Verif Require Import ConcPanicProofs DemoConcPanic.

(* ---- C57 ---- *)
(* A panic ends the call, or, when it happens while a guard inserts its value, the guard is dropped
   instead. Nobody else notices: their calls go on where they were; the loads they started or wait
   for are as they were; no other shard changes. In its own shard the panic changes nothing, or
   stops partway to what the call would have done with the pair it offers. *)
Theorem C57_panic : ∀ (P : Params), Lawful P → ptr_ids P = true → ∀ dbg budget ghosts cap e hs (y : sys P) a q y',
  eventful dbg (sys_new budget ghosts cap e) hs y → (q, y') ∈ booms y a → harmless_at q = true →
  y_log y' = y_log y ∧ y_now y' = y_now y ∧ length (y_agents y') = length (y_agents y) ∧
  (∀ b, b ≠ a → y_agents y' !! b = y_agents y !! b) ∧
  (∃ ag ag', y_agents y !! a = Some ag ∧ y_agents y' !! a = Some ag' ∧
     (a_pc ag' = ADone RetCancel ∨ ∃ j p rs v wl, a_pc ag = IIn j p rs v wl ∧ a_pc ag' = DWant j p)) ∧
  (∀ j s, sc_shards (y_cache y) !! j = Some s → ∃ s', sc_shards (y_cache y') !! j = Some s' ∧
     (∀ n, (n < sh_nph s)%N → y_ph y' (j, n) = y_ph y (j, n)) ∧
     (s' = s ∨ ∃ ag z, y_agents y !! a = Some ag ∧ running (a_pc ag) = Some (j, z) ∧ panic_hits q z s s')).
Proof.
  intros P LW PI dbg budget ghosts cap e hs y a q y' H Hin Hq. destruct (eventful_reach LW PI _ _ _ H) as [D HR].
  exact (boom_does LW PI _ _ _ _ _ HR Hin Hq).
Qed.
Print Assumptions C57_panic.
(* Whatever panicked before, the next step does to each shard nothing, or one critical section, with
   the effect and the result of the specification of C29. *)
Theorem C57_steps : ∀ (P : Params), Lawful P → ptr_ids P = true → ∀ dbg budget ghosts cap e hs (y : sys P) lb y' j s,
  eventful dbg (sys_new budget ghosts cap e) hs y → cstep dbg y lb = Some (Ok y') → sc_shards (y_cache y) !! j = Some s →
  ∃ s', sc_shards (y_cache y') !! j = Some s' ∧ one_section cap budget j y y' s s'.
Proof.
  intros P LW PI dbg budget ghosts cap e hs y lb y' j s H Hc Hs. destruct (eventful_reach LW PI _ _ _ H) as [D HR].
  exact (step_section LW PI _ _ _ _ _ _ _ HR Hc Hs).
Qed.
Print Assumptions C57_steps.
(* A call that returned did what its kind of call does, in order, on the shard of its key, and it
   returned what its critical sections returned: as in C39. *)
Theorem C57_calls : ∀ (P : Params), Lawful P → ptr_ids P = true → ∀ dbg budget ghosts cap e hs (y : sys P) a r,
  eventful dbg (sys_new budget ghosts cap e) hs y → (a, EvRet r) ∈ y_log y →
  ∃ ag h, y_agents y !! a = Some ag ∧ hist (y_log y) a = h ++ [EvRet r] ∧
    life (2 ^ e - 1)%N (N.to_nat (2 ^ e)) (a_call ag) h r.
Proof. intros P LW PI dbg budget ghosts cap e hs y a r. apply (eventful_life LW PI). Qed.
Print Assumptions C57_calls.
(* Every shard is consistent. *)
Theorem C57_sound : ∀ (P : Params), Lawful P → ptr_ids P = true → ∀ dbg budget ghosts cap e hs (y : sys P) j s,
  eventful dbg (sys_new budget ghosts cap e) hs y → sc_shards (y_cache y) !! j = Some s →
  sh_len s = N.of_nat (length (sh_iter s)) ∧
  sh_weight s = (if (wsum (sh_iter s) <? two64)%N then Ok (wsum (sh_iter s)) else Fail WeightOvf) ∧
  ukeys (sh_iter s) ∧ sh_capacity s = cap ∧ (∀ k, u_peek s k = Ok (value_of k (sh_iter s))) ∧
  (N.of_nat (length (remembered s)) ≤ ghosts)%N ∧
  (∀ k v, (k, v) ∈ sh_iter s → shard_idx (sc_mask (y_cache y)) k = j).
Proof.
  intros P LW PI dbg budget ghosts cap e hs y j s H Hs. destruct (eventful_reach LW PI _ _ _ H) as [D HR].
  destruct (lost_sound LW _ _ _ _ HR Hs) as (A & B & C & E & F & G). split_and!; try done.
  intros k v Hk. symmetry. destruct (eventful_placed LW PI _ _ _ H j s Hs) as [Hp _]. by apply (Hp k v).
Qed.
Print Assumptions C57_sound.
(* No call fails in a way it could not without the panics. *)
Theorem C57_no_failure : ∀ (P : Params), Lawful P → ptr_ids P = true → ∀ dbg budget ghosts cap e hs (y : sys P) lb f,
  eventful dbg (sys_new budget ghosts cap e) hs y → cstep dbg y lb = Some (Fail f) → gives_out budget cap y lb f.
Proof.
  intros P LW PI dbg budget ghosts cap e hs y lb f H Hc. destruct (eventful_reach LW PI _ _ _ H) as [D HR].
  exact (lost_fails LW PI _ _ _ _ _ HR Hc).
Qed.
Print Assumptions C57_no_failure.
(* No deadlock: left to themselves, the calls all return or wait for somebody who was given a guard
   and has not used it, after finitely many steps, however they are scheduled; then nobody holds a
   lock or waits for one, also if calls are left that panicked after they inserted through a guard. *)
Theorem C57_no_deadlock : ∀ (P : Params), Lawful P → ptr_ids P = true → ∀ dbg budget ghosts cap e hs (y : sys P),
  eventful dbg (sys_new budget ghosts cap e) hs y →
  (∃ n, ∀ ls y', only_go ls → steps dbg y ls y' → length ls ≤ n) ∧
  (∃ ls y', only_go ls ∧ steps dbg y ls y' ∧ (at_rest dbg y' ∨ ∃ a f, go dbg y' a = Some (Fail f))) ∧
  (∀ F, at_rest_but dbg y F → ∀ a ag, y_agents y !! a = Some ag → a ∉ F →
     Conc.holds a (a_pc ag) = [] ∧ wants a (a_pc ag) = None).
Proof.
  intros P LW PI dbg budget ghosts cap e hs y H. destruct (eventful_reach LW PI _ _ _ H) as [D HR].
  destruct (lost_bounded LW PI D dbg y HR) as [H1 H2]. split; [done|]. split; [done|]. intros F HF a ag. by apply (rest_free dbg).
Qed.
Print Assumptions C57_no_deadlock.
(* No waiter is forgotten: at rest, whoever waits for a load waits for a guard that somebody else
   holds, or that was handed to a future that was woken and not polled since. *)
Theorem C57_waiters : ∀ (P : Params), Lawful P → ptr_ids P = true → ∀ dbg budget ghosts cap e hs (y : sys P) F l a,
  eventful dbg (sys_new budget ghosts cap e) hs y → at_rest_but dbg y F → waits_for y l a →
  ∃ b, guard_held y l b ∨ woken_future y l b.
Proof.
  intros P LW PI dbg budget ghosts cap e hs y F l a H HF Hw. destruct (eventful_reach LW PI _ _ _ H) as [D HR].
  exact (rest_waits _ _ _ _ _ _ HR HF Hw).
Qed.
Print Assumptions C57_waiters.
(* A load has one guard at a time. *)
Theorem C57_one_guard : ∀ (P : Params), Lawful P → ptr_ids P = true → ∀ dbg budget ghosts cap e hs (y : sys P) l a b,
  eventful dbg (sys_new budget ghosts cap e) hs y → guard_held y l a → guard_held y l b → a = b.
Proof.
  intros P LW PI dbg budget ghosts cap e hs y l a b H Ha Hb. destruct (eventful_reach LW PI _ _ _ H) as [D HR].
  exact (lost_one _ _ _ _ _ HR Ha Hb).
Qed.
Print Assumptions C57_one_guard.
(* Whoever waited for a load and got a value got the one value that was provided to it. *)
Theorem C57_values : ∀ (P : Params), Lawful P → ptr_ids P = true → ∀ dbg budget ghosts cap e hs (y : sys P) a l v,
  eventful dbg (sys_new budget ghosts cap e) hs y → (a, EvRet (RetVal v (Some l))) ∈ y_log y →
  ∃ b, (b, EvPut l v) ∈ y_log y ∧ ∀ c v', (c, EvPut l v') ∈ y_log y → v' = v.
Proof.
  intros P LW PI dbg budget ghosts cap e hs y a l v H Hin. destruct (eventful_told LW PI _ _ _ _ _ _ H Hin) as [b Hb].
  destruct (eventful_reach LW PI _ _ _ H) as [D HR]. exists b. split; [done|]. intros c v' Hc. symmetry. exact (put_same _ _ _ _ _ _ _ HR Hb Hc).
Qed.
Print Assumptions C57_values.

(* With the locks of the standard library waiters can be forgotten, even if all panics are calm: a
   panic in Eq in some other call poisons the shard, and when the guard is dropped the lock refuses,
   before anybody is notified. *)
Theorem C57_std_waiters_refuted : ∃ (P : Params) y l a bad, Lawful P ∧ ptr_ids P = true ∧
  std_run true (Std (sys_new (P:=P) 10 3 14 1) []) (Std y bad) ∧ still y ∧ waits_for y l a ∧
  ∀ b, ¬ guard_held y l b ∧ ¬ woken_future y l b.
Proof.
  exists SH, z_still, (1%nat, 0%N), 2, [1]. split; [exact lawSH|]. split; [done|]. split_and!.
  - eapply (sd_refused _ _ z_drop [1] 1 _ 1 MW); [|vm_compute; reflexivity|vm_compute; reflexivity|by left].
    eapply (sd_step _ _ z_bad [1] (DropG 1)); [|unfold z_drop; apply step_in; vm_compute; reflexivity|by intros a ag j m [=]].
    assert (∃ ag, y_agents z_under !! 3 = Some ag ∧ only_shards 3 (a_pc ag) ∧ shards_held 3 (a_pc ag) ++ [] = [1]) as (ag & Ha & Ho & E).
    { eexists. split; [vm_compute; reflexivity|]. split; [|vm_compute; reflexivity]. vm_compute. repeat constructor. by eexists. }
    rewrite <-E. eapply (sd_panic _ _ z_under [] 3 ag (SP PEq) z_bad); [|done|done| |done].
    + eapply std_steps, (on_execution (P:=SH)).
    + unfold z_bad. apply boom_in. vm_compute. reflexivity.
  - intros a ag Ha. assert (forallb (λ ag, match a_pc ag with ADone _ | FNew _ _ | FIdle _ _ _ => true | JPark _ _ _ => negb (a_token ag) | _ => false end) (y_agents z_still) = true) as Hall by (vm_compute; reflexivity).
    rewrite forallb_forall in Hall. specialize (Hall ag). rewrite <-elem_of_list_In in Hall. specialize (Hall (elem_of_list_lookup_2 _ _ _ Ha)). clear Ha.
    destruct (a_pc ag); try done. by destruct (a_token ag).
  - eexists _, _, _. split; [vm_compute; reflexivity|]. split; [|left; eexists; vm_compute; reflexivity]. done.
  - intros b. assert (forallb (λ ag, match a_pc ag with AGuard _ _ | FIdle _ _ _ => false | _ => true end) (y_agents z_still) = true) as Hall by (vm_compute; reflexivity).
    rewrite forallb_forall in Hall.
    split; [intros (ag & j & p & Hb & Epc & _)|intros (ag & j & p & wk & Hb & Epc & _)];
      (specialize (Hall ag); rewrite <-elem_of_list_In in Hall; specialize (Hall (elem_of_list_lookup_2 _ _ _ Hb)); clear Hb; by rewrite Epc in Hall).
Qed.
Print Assumptions C57_std_waiters_refuted.

(* Three panics: one under the lock of the shard, halfway; one in the start of a load; one in Clone
   while a guard inserts. *)
Example C57_example_panics : eventful true (sys_new 10 3 14 1) (hon_hs z_end) (hon z_end) ∧
  panics_of (hon_hs z_end) = [(3, SP PReplacedEvict); (4, SP PUpsertGrow); (1, SClone)].
Proof. split; [apply hon_eventful|vm_compute; reflexivity]. Qed.
(* The first changed the shard, though its call did not return: C57_panic, partway. *)
Example C57_example_partway :
  let y := hon (take 8 z_two) in let y' := boom_ y 3 3 in
  (SP PReplacedEvict, y') ∈ booms y 3 ∧
  map (@sh_iter SH) (sc_shards (y_cache y)) = [[]; [(7%N, 3%N)]] ∧
  map (@sh_iter SH) (sc_shards (y_cache y')) = [[]; [(7%N, 4%N)]].
Proof. split; [apply boom_in; vm_compute; reflexivity|]. split; vm_compute; reflexivity. Qed.
(* The guard of the third went to a waiter: C57_waiters and C57_one_guard. *)
Example C57_example_waiters : at_rest_but true (hon z_rest) [] ∧ waits_for (hon z_rest) (1%nat, 0%N) 2 ∧ guard_held (hon z_rest) (1%nat, 0%N) 5.
Proof.
  split_and!.
  - split; [by intros a ?%elem_of_nil|]. intros a _. assert (at_rest true (hon z_rest)) as H; [|apply H]. apply resting. vm_compute. reflexivity.
  - eexists _, _, _. split; [vm_compute; reflexivity|]. split; [|left; eexists; vm_compute; reflexivity]. done.
  - eexists _, _, _. split; [vm_compute; reflexivity|]. split; [vm_compute; reflexivity|]. done.
Qed.
(* ... and the other waiter got the value that it provided: C57_calls and C57_values. *)
Example C57_example_values : (2, EvRet (P:=SH) (RetVal (P:=SH) 6%N (Some (1%nat, 0%N)))) ∈ y_log (hon z_end) ∧
  (5, EvPut (P:=SH) (1%nat, 0%N) 6%N) ∈ y_log (hon z_end).
Proof. split; [is_at 26|is_at 22]. Qed.
(* A call that panicked after it provided the value, before it reached the shard: at rest but for it. *)
Example C57_example_stuck : at_rest_but true (hon z_stuck) [5] ∧ (2, EvRet (P:=SH) (RetVal (P:=SH) 6%N (Some (1%nat, 0%N)))) ∈ y_log (hon z_stuck).
Proof.
  split; [split|is_at 24].
  - intros a ->%elem_of_list_singleton. eexists _, _, _, _, _, _, _. split; [vm_compute; reflexivity|vm_compute; reflexivity].
  - intros a Ha. destruct (decide (a < 6)%nat) as [Hlt|Hge].
    + do 6 (destruct a as [|a]; [first [vm_compute; reflexivity|by destruct Ha; left]|]). lia.
    + unfold go. rewrite lookup_ge_None_2; [done|]. assert (length (y_agents (hon z_stuck)) = 6) as -> by (vm_compute; reflexivity). lia.
Qed.
