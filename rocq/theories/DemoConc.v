(* Concrete executions of the sync cache used by many threads and futures. *)
From stdpp Require Import prelude list.
From Verif Require Export DemoSync ConcPropSpec.

Section play.
Context {P : Params} (dbg : bool).
Implicit Types (y : sys P) (a : nat).

(* A script: labels, or "agent a runs until it cannot move". What is impossible is left out. *)
Inductive script := L (lb : label P) | Run a.
Fixpoint run_agent (n : nat) a (z : list (label P) * sys P) : list (label P) * sys P :=
  match n with
  | 0 => z
  | S n => match go dbg z.2 a with Some (Ok y) => run_agent n a (z.1 ++ [Go a], y) | _ => z end
  end.
Definition play1 (z : list (label P) * sys P) (x : script) : list (label P) * sys P :=
  match x with
  | L lb => match cstep dbg z.2 lb with Some (Ok y) => (z.1 ++ [lb], y) | _ => z end
  | Run a => run_agent 60 a z
  end.
Definition play y (xs : list script) : list (label P) * sys P := foldl play1 ([], y) xs.
Lemma run_agent_steps y0 n a z : steps dbg y0 z.1 z.2 → steps dbg y0 (run_agent n a z).1 (run_agent n a z).2.
Proof.
  revert z. induction n as [|n IH]; intros z H; simpl; [done|]. destruct (go dbg z.2 a) as [[y|]|] eqn:E; try done.
  apply IH. simpl. by eapply st_snoc.
Qed.
Lemma play_steps y xs : steps dbg y (play y xs).1 (play y xs).2.
Proof.
  unfold play. assert (∀ z, steps dbg y z.1 z.2 → steps dbg y (foldl play1 z xs).1 (foldl play1 z xs).2) as H; [|apply H; constructor].
  induction xs as [|x xs IH]; intros z Hz; simpl; [done|]. apply IH. destruct x as [lb|a]; unfold play1; [|by apply run_agent_steps].
  destruct (cstep dbg z.2 lb) as [[y'|]|] eqn:E; try done. by eapply st_snoc.
Qed.
Lemma play_execution budget ghosts cap e xs :
  execution dbg budget ghosts cap e (play (sys_new budget ghosts cap e) xs).1 (play (sys_new budget ghosts cap e) xs).2.
Proof. apply play_steps. Qed.
End play.
Arguments script : clear implicits.

(* two shards of capacity 14, with a hot budget of 10 *)
Definition on {P : Params} (xs : list (script P)) : sys P := (play true (sys_new 10 3 14 1) xs).2.
Definition on_ls {P : Params} (xs : list (script P)) : list (label P) := (play true (sys_new 10 3 14 1) xs).1.
Lemma on_execution {P : Params} (xs : list (script P)) : execution true 10 3 14 1 (on_ls xs) (on xs).
Proof. apply play_execution. Qed.

Definition call_ {P : Params} : call P → script P := λ c, L (Spawn c).
Definition load {P : Params} : K P → option N → script P := λ k to, L (Spawn (KLoad k to)).
Definition fut {P : Params} : K P → script P := λ k, L (Spawn (KFut k)).

Local Open Scope N_scope.
(* agents 0 to 3: a loader, two threads and a future that wait for it; one thread times out; the
   value is provided to the others *)
Definition x_load : list (script SH) :=
  [ load (P:=SH) 5 None; Run 0; load (P:=SH) 5 None; load (P:=SH) 5 (Some 3)%N; fut (P:=SH) 5; L (Poll 3 7%N); Run 1; Run 2; Run 3;
    L (Tick 2%N); L (Wake 2); Run 2; L (Tick 2%N); L (Wake 2); Run 2;
    L (PutG (P:=SH) 0 0%N 6%N false); Run 0; Run 1; L (Poll 3 8%N); Run 3 ].
(* agents 0 to 2: a loader and two threads that wait; the guard is dropped and goes to thread 2,
   which provides the value *)
Definition x_give : list (script SH) :=
  [ load (P:=SH) 5 None; Run 0; load (P:=SH) 5 None; Run 1; load (P:=SH) 5 None; Run 2; L (DropG 0); Run 0; Run 2;
    L (PutG (P:=SH) 2 0%N 6%N false); Run 2; Run 1 ].
(* agent 0 loads key 5; agent 1 removes key 5; agent 2 loads key 5 as well: two guards *)
Definition x_two : list (script SH) :=
  [ load (P:=SH) 5 None; Run 0; call_ (P:=SH) (KCmd (CRemove (P:=SH) 5)); Run 1; load (P:=SH) 5 None; Run 2 ].
(* ... the value of agent 0 comes too late, that of agent 2 is cached *)
Definition x_stale : list (script SH) := x_two ++ [ L (PutG (P:=SH) 0 0%N 6%N false); Run 0; L (PutG (P:=SH) 2 0%N 4%N false); Run 2;
    load (P:=SH) 5 None; Run 3 ].
(* agents 0 to 2: a loader, a thread and a future that wait; the guard is dropped and goes to the
   future, which is cancelled: the guard goes to the thread *)
Definition x_pass : list (script SH) :=
  [ load (P:=SH) 5 None; Run 0; load (P:=SH) 5 None; Run 1; fut (P:=SH) 5; L (Poll 2 7%N); Run 2; L (DropG 0); Run 0;
    L (DropFut 2); Run 2; Run 1 ].
(* a guard is dropped with nobody waiting; the key is loaded again *)
Definition x_end : list (script SH) :=
  [ load (P:=SH) 5 None; Run 0; L (DropG 0); Run 0; load (P:=SH) 5 None; Run 1 ].
(* four threads read the same key at the same time *)
Definition x_race : list (script SH) :=
  [ call_ (P:=SH) (KCmd (CInsert (P:=SH) 0 5 6 false)); Run 0;
    call_ (P:=SH) (KCmd (CGet (P:=SH) 5)); call_ (P:=SH) (KCmd (CGet (P:=SH) 5)); call_ (P:=SH) (KCmd (CGet (P:=SH) 5)); call_ (P:=SH) (KCmd (CGet (P:=SH) 5));
    L (Go 1); L (Go 1); L (Go 2); L (Go 2); L (Go 3); L (Go 3); L (Go 4); L (Go 4); Run 1; Run 2; Run 3; Run 4 ].
(* a thread with a timeout of 10 wakes up after 9 and parks again *)
Definition x_park : list (script SH) :=
  [ load (P:=SH) 5 None; Run 0; load (P:=SH) 5 (Some 10); Run 1; L (Tick 9); L (Wake 1); Run 1 ].

(* membership in a list that can be computed: the place is found by computation *)
Ltac is_at n := apply (elem_of_list_lookup_2 _ n); match goal with |- _ = ?r => vm_cast_no_check (@eq_refl _ r) end.
Ltac computed := match goal with |- _ = ?r => vm_cast_no_check (@eq_refl _ r) end.
(* no event passes a test *)
Definition quiet {P : Params} (f : nat → cevent P → bool) (g : list (nat * cevent P)) : bool := forallb (λ z, negb (f z.1 z.2)) g.
Lemma quiet_not {P : Params} f (g : list (nat * cevent P)) a ev : quiet f g = true → f a ev = true → (a, ev) ∉ g.
Proof.
  unfold quiet. rewrite forallb_forall. intros H Hf Hin. apply elem_of_list_In in Hin. apply H in Hin. simpl in Hin. by rewrite Hf in Hin.
Qed.
Lemma not_noted {P : Params} (g : list (nat * cevent P)) b :
  quiet (λ _ ev, match ev with EvNote b' => Nat.eqb b' b | _ => false end) g = true → ¬ noted g b.
Proof. intros H [a Ha]. eapply quiet_not; [exact H| |exact Ha]. simpl. by apply Nat.eqb_eq. Qed.
Lemma not_returned {P : Params} (g : list (nat * cevent P)) b :
  quiet (λ a ev, match ev with EvRet _ => Nat.eqb a b | _ => false end) g = true → ¬ returned g b.
Proof. intros H [r Hr]. eapply quiet_not; [exact H| |exact Hr]. simpl. by apply Nat.eqb_eq. Qed.
Lemma not_settled {P : Params} (g : list (nat * cevent P)) l b :
  quiet (λ a ev, match ev with EvPut l' _ | EvGive l' _ | EvEnd l' => Nat.eqb a b && bool_decide (l' = l) | _ => false end) g = true → ¬ settled g l b.
Proof.
  intros H [[v Hv]|[[d Hd]|He]]; (eapply quiet_not; [exact H| |eassumption]); simpl; rewrite Nat.eqb_refl; by apply bool_decide_eq_true.
Qed.
(* no agent can move *)
Lemma resting {P : Params} dbg (y : sys P) :
  forallb (λ a, match go dbg y a with None => true | _ => false end) (seq 0 (length (y_agents y))) = true → at_rest dbg y.
Proof.
  intros H a. destruct (decide (a < length (y_agents y))%nat) as [Hlt|Hge].
  - rewrite forallb_forall in H. specialize (H a). rewrite in_seq in H. destruct (go dbg y a); [|done]. by discriminate H; lia.
  - unfold go. rewrite lookup_ge_None_2; [done|lia].
Qed.
