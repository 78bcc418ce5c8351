(* C51: get_or_insert_with and get_or_insert_async used by many threads and futures at the same time.
   Each theorem is about every execution of Conc.v in which the guards that calls are given are used
   the way these two functions use them: the closure is called, and its value inserted, or the guard
   dropped if it computes none. LoadSpec.v defines what a call answers. *)
From stdpp Require Import prelude list.
From Verif Require Import ConcLoad DemoConc.

(* What a call answers. Ok(v): its closure was called and computed v; or it was not called, and v was
   computed by the closure of another call for the same key, which had not returned when this one
   was made, or was cached: it is what the last write to the key left there. Err: its closure was
   called and computed no value, or the future was dropped. *)
Theorem C51_answer : ∀ (P : Params), Lawful P → ptr_ids P = true → ∀ dbg budget ghosts cap e ls (y : sys P) (w : nat → option (V P)) a ag k r,
  execution dbg budget ghosts cap e ls y → closures w ls → y_agents y !! a = Some ag → or_insert (a_call ag) k → (a, EvRet r) ∈ y_log y →
  match answer w a r with
  | Some v =>
      (ran (y_log y) a ∧ w a = Some v) ∨
      (¬ ran (y_log y) a ∧ ((∃ b, b ≠ a ∧ computed_by w y b k v ∧ not_before (y_log y) a b) ∨ read_cached (y_log y) a k v))
  | None => (ran (y_log y) a ∧ w a = None) ∨ (¬ ran (y_log y) a ∧ DropFut a ∈ ls)
  end.
Proof.
  intros P LW PI dbg budget ghosts cap e ls y w a ag k r H Hw Ha Hk Hr. pose proof (answered LW PI _ _ _ _ _ _ _ _ H Hw Ha Hk Hr) as HA.
  destruct (answer w a r); [done|]. destruct HA as [HA|[H1 H2]]; [by left|by right].
Qed.
Print Assumptions C51_answer.
(* a call whose closure was called answers what the closure computed, whatever the others do *)
Theorem C51_own : ∀ (P : Params), Lawful P → ptr_ids P = true → ∀ dbg budget ghosts cap e ls (y : sys P) (w : nat → option (V P)) a ag k r,
  execution dbg budget ghosts cap e ls y → closures w ls → y_agents y !! a = Some ag → or_insert (a_call ag) k → (a, EvRet r) ∈ y_log y →
  ran (y_log y) a → answer w a r = w a.
Proof.
  intros P LW PI dbg budget ghosts cap e ls y w a ag k r H Hw Ha Hk Hr Hran. pose proof (answered LW PI _ _ _ _ _ _ _ _ H Hw Ha Hk Hr) as HA.
  destruct (answer w a r).
  - by destruct HA as [[_ ->]|[? _]].
  - by destruct HA as [[_ ->]|[_ ?]].
Qed.
Print Assumptions C51_own.
(* the branch of the code declared unreachable is: these calls do not time out *)
Theorem C51_no_timeout : ∀ (P : Params), Lawful P → ptr_ids P = true → ∀ dbg budget ghosts cap e ls (y : sys P) a ag k,
  execution dbg budget ghosts cap e ls y → y_agents y !! a = Some ag → or_insert (a_call ag) k → (a, EvRet RetTimeout) ∉ y_log y.
Proof. intros P LW PI dbg budget ghosts cap e ls y a ag k H. destruct (ginv LW PI _ _ _ H) as [HR _]. exact (no_timeout _ _ _ _ HR). Qed.
Print Assumptions C51_no_timeout.
(* the closure of a call is called at most once *)
Theorem C51_once : ∀ (P : Params), Lawful P → ptr_ids P = true → ∀ dbg budget ghosts cap e ls (y : sys P) a g1 l1 g2 l2 g3,
  execution dbg budget ghosts cap e ls y → y_log y ≠ g1 ++ (a, EvGuard l1) :: g2 ++ (a, EvGuard l2) :: g3.
Proof. intros P LW PI dbg budget ghosts cap e ls y a g1 l1 g2 l2 g3 H E. destruct (ginv LW PI _ _ _ H) as [HR _]. exact (guard_once _ _ _ _ _ _ _ HR E). Qed.
Print Assumptions C51_once.
(* and only if the value was not cached, and no load of the key was pending, or the one that was
   pending came to nothing: the closure of the call that was in charge of it computed no value *)
Theorem C51_only_when_needed : ∀ (P : Params), Lawful P → ptr_ids P = true → ∀ dbg budget ghosts cap e ls (y : sys P) (w : nat → option (V P)) a l,
  execution dbg budget ghosts cap e ls y → closures w ls → (a, EvGuard l) ∈ y_log y →
  ∃ ag k, y_agents y !! a = Some ag ∧ loads_key (a_call ag) = Some k ∧ (a, EvSec l.1 (OCmd (CGet k)) (SO (plain (RVal None)))) ∈ y_log y ∧
    ((a, EvSec l.1 (OJoin k) (SNew l.2)) ∈ y_log y ∨
     ∃ b bg kb, b ≠ a ∧ (b, EvGive l a) ∈ y_log y ∧ y_agents y !! b = Some bg ∧ loads_key (a_call bg) = Some kb ∧ keqb P kb k = true ∧
       failed w ls (y_log y) b).
Proof. intros P LW PI dbg budget ghosts cap e ls y w a l. exact (why_ran LW PI _ _ _ _ _ _). Qed.
Print Assumptions C51_only_when_needed.
(* two closures for one key run at the same time only if, since the load of one of them was started,
   a call removed or overwrote the key, or cleared the cache *)
Theorem C51_one_at_a_time : ∀ (P : Params), Lawful P → ptr_ids P = true → ∀ dbg budget ghosts cap e ls (y : sys P) a ag ka la b bg kb lb,
  execution dbg budget ghosts cap e ls y → y_agents y !! a = Some ag → loads_key (a_call ag) = Some ka → y_agents y !! b = Some bg →
  loads_key (a_call bg) = Some kb → keqb P ka kb = true → guard_held y la a → guard_held y lb b → a ≠ b →
  ∃ g1 d k l g2, y_log y = g1 ++ (d, EvSec l.1 (OJoin k) (SNew l.2)) :: g2 ∧ (l = la ∨ l = lb) ∧ cancelled budget g2 l.1 ka.
Proof.
  intros P LW PI dbg budget ghosts cap e ls y a ag ka la b bg kb lb H. destruct (ginv LW PI _ _ _ H) as [HR HG].
  exact (two_running LW _ _ _ _ _ _ _ _ _ HR HG).
Qed.
Print Assumptions C51_one_at_a_time.
(* whoever waits for a load whose value is computed answers that value, and its closure is not called *)
Theorem C51_coalesced : ∀ (P : Params), Lawful P → ptr_ids P = true → ∀ dbg budget ghosts cap e ls (y : sys P) (w : nat → option (V P)) a b bg k l v r,
  execution dbg budget ghosts cap e ls y → closures w ls → y_agents y !! b = Some bg → or_insert (a_call bg) k →
  (a, EvPut l v) ∈ y_log y → (b, EvWait l) ∈ y_log y → a ≠ b → (b, EvRet r) ∈ y_log y →
  (answer w b r = Some v ∧ ¬ ran (y_log y) b) ∨ (answer w b r = None ∧ failed w ls (y_log y) b).
Proof. intros P LW PI dbg budget ghosts cap e ls y w a b bg k l v r. exact (coalesced LW PI _ _ _ _ _ _ _ _ _ _ _). Qed.
Print Assumptions C51_coalesced.
(* once no thread can move, no closure runs, and no future that was woken waits to be polled, every
   call has returned, except for futures that were never polled *)
Theorem C51_all_return : ∀ (P : Params), Lawful P → ptr_ids P = true → ∀ dbg budget ghosts cap e ls (y : sys P) a ag,
  execution dbg budget ghosts cap e ls y → at_rest dbg y → (∀ l b, ¬ guard_held y l b) → (∀ l b, ¬ woken_future y l b) → y_agents y !! a = Some ag →
  returned (y_log y) a ∨ ∃ j k, a_pc ag = FNew j k.
Proof. intros P LW PI dbg budget ghosts cap e ls y a ag H. destruct (ginv LW PI _ _ _ H) as [HR _]. exact (all_return _ _ _ _ HR). Qed.
Print Assumptions C51_all_return.

(* three threads: the closure of the first fails, that of the third is called then and computes 6,
   the second answers 6 without calling its own, which would have computed 9 *)
Definition w_give (a : nat) : option N := match a with 0 => None | 1 => Some 9%N | _ => Some 6%N end.
Example C51_example : closures (P:=SH) w_give (on_ls x_give) ∧
  ran (y_log (on x_give)) 0 ∧ ran (y_log (on x_give)) 2 ∧ ¬ ran (y_log (on x_give)) 1 ∧
  (∃ r, (0, EvRet r) ∈ y_log (on x_give) ∧ answer (P:=SH) w_give 0 r = None) ∧
  (∃ r, (1, EvRet r) ∈ y_log (on x_give) ∧ answer (P:=SH) w_give 1 r = Some 6%N) ∧
  (∃ r, (2, EvRet r) ∈ y_log (on x_give) ∧ answer (P:=SH) w_give 2 r = Some 6%N) ∧
  (2, EvPut (P:=SH) (1%nat, 0%N) 6%N) ∈ y_log (on x_give) ∧ (1, EvWait (P:=SH) (1%nat, 0%N)) ∈ y_log (on x_give) ∧
  (∃ ag, y_agents (on x_give) !! 1 = Some ag ∧ or_insert (a_call ag) (5%N : K SH)) ∧ at_rest true (on x_give).
Proof.
  split.
  { let l := eval vm_compute in (on_ls x_give) in assert (on_ls x_give = l) as -> by vm_cast_no_check (@eq_refl _ l). by repeat constructor. }
  split; [exists (1%nat, 0%N); is_at 3|]. split; [exists (1%nat, 0%N); is_at 15|]. split.
  { intros [l Hl]. apply (quiet_not (λ a ev, match ev with EvGuard _ => Nat.eqb a 1 | _ => false end) _ 1 (EvGuard l)) in Hl; [done|computed|reflexivity]. }
  split; [exists RetDrop; split; [is_at 14|reflexivity]|]. split; [exists (RetVal (P:=SH) 6%N (Some (1%nat, 0%N))); split; [is_at 20|reflexivity]|].
  split; [exists (RetOut (P:=SH) {| o_ret := RGuard; o_log := [LBegin (P:=SH) 0%N; LEnd (P:=SH) 0%N]; o_called := false; o_state := None |}); split; [is_at 19|reflexivity]|].
  split; [is_at 16|]. split; [is_at 7|]. split; [eexists; split; [vm_compute; reflexivity|by left]|]. apply resting; computed.
Qed.
(* a call that removes the key in between lets two closures for it run at the same time *)
Example C51_two_running : guard_held (on x_two) (1%nat, 0%N) 0 ∧ guard_held (on x_two) (1%nat, 1%N) 2.
Proof. split; eexists _, _, _; (split; [vm_compute; reflexivity|]); split; vm_compute; reflexivity. Qed.
