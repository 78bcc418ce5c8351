(* Concrete executions of the sync cache used by many threads, with panics in user code. *)
From stdpp Require Import prelude list.
From Verif Require Export DemoConc ConcPanicSpec.

Section play.
Context {P : Params} (dbg : bool).
Implicit Types (y : sys P) (a : nat).

(* A script: labels, "agent a runs until it cannot move", "agent a panics at the n-th of the points
   of its next step", if that is harmless. What is impossible is left out. *)
Inductive pscript := Sc (x : script P) | Boom a (n : nat).
Definition hplay1 (z : list (happening P) * sys P) (x : pscript) : list (happening P) * sys P :=
  match x with
  | Sc x => (z.1 ++ map Step (play1 dbg ([], z.2) x).1, (play1 dbg ([], z.2) x).2)
  | Boom a n => match booms z.2 a !! n with
                | Some (q, y) => if harmless_at q then (z.1 ++ [Panics a q], y) else z
                | None => z
                end
  end.
Definition hplay y (xs : list pscript) : list (happening P) * sys P := foldl hplay1 ([], y) xs.
Lemma eventful_steps y hs y1 ls y2 : eventful dbg y hs y1 → steps dbg y1 ls y2 → eventful dbg y (hs ++ map Step ls) y2.
Proof.
  intros H H2. revert H. induction H2 as [y1|y1 ls y2 lb y3 H2 IH Hc]; intros H; simpl; [by rewrite app_nil_r|].
  rewrite map_app, app_assoc. simpl. eapply ef_step; [by apply IH|done].
Qed.
Lemma play1_steps y x : steps dbg y (play1 dbg ([], y) x).1 (play1 dbg ([], y) x).2.
Proof. apply (play_steps dbg y [x]). Qed.
Lemma hplay_eventful y xs : eventful dbg y (hplay y xs).1 (hplay y xs).2.
Proof.
  unfold hplay. assert (∀ z, eventful dbg y z.1 z.2 → eventful dbg y (foldl hplay1 z xs).1 (foldl hplay1 z xs).2) as H; [|apply H; constructor].
  induction xs as [|x xs IH]; intros z Hz; simpl; [done|]. apply IH. destruct x as [x|a n]; simpl.
  - eapply eventful_steps; [done|apply play1_steps].
  - destruct (booms z.2 a !! n) as [[q y']|] eqn:E; [|done]. destruct (harmless_at q) eqn:Eq; [|done]. simpl.
    eapply ef_panic; [done|by eapply elem_of_list_lookup_2|done].
Qed.
End play.
Arguments pscript : clear implicits.
(* two shards of capacity 14, with a hot budget of 10 *)
Definition hon {P : Params} (xs : list (pscript P)) : sys P := (hplay true (sys_new 10 3 14 1) xs).2.
Definition hon_hs {P : Params} (xs : list (pscript P)) : list (happening P) := (hplay true (sys_new 10 3 14 1) xs).1.
Lemma hon_eventful {P : Params} (xs : list (pscript P)) : eventful true (sys_new 10 3 14 1) (hon_hs xs) (hon xs).
Proof. apply hplay_eventful. Qed.

Local Open Scope N_scope.
Definition ins_ : N → N → script SH := λ k v, call_ (P:=SH) (KCmd (CInsert (P:=SH) 0 k v false)).
(* agent 1 loads key 5, agent 2 waits for it *)
Definition z_wait : list (script SH) := [ ins_ 7 3; Run 0; load (P:=SH) 5 None; Run 1; load (P:=SH) 5 None; Run 2 ].
(* agent 3 replaces the value of key 7 in the same shard and panics when that value is dropped; agent
   4 starts a load of key 9, which panics *)
Definition z_two : list (pscript SH) := map Sc z_wait ++
  [ Sc (ins_ 7 4); Sc (L (Go 3)); Boom 3 3; Sc (load (P:=SH) 9 None); Sc (L (Go 4)); Sc (L (Go 4)); Sc (L (Go 4)); Sc (L (Go 4)); Boom 4 2 ].
(* agent 5 waits for key 5 as well; agent 1 provides a value, and panics when it is cloned *)
Definition z_clone : list (pscript SH) := z_two ++
  [ Sc (load (P:=SH) 5 None); Sc (Run 5); Sc (L (PutG (P:=SH) 1 0 6 false)); Sc (L (Go 1)); Boom 1 0 ].
(* the guard goes to agent 5 *)
Definition z_rest : list (pscript SH) := z_clone ++ [ Sc (Run 1); Sc (Run 2); Sc (Run 5) ].
(* ... which provides the value to agent 2 *)
Definition z_end : list (pscript SH) := z_rest ++ [ Sc (L (PutG (P:=SH) 5 0 6 false)); Sc (Run 5); Sc (Run 2) ].
(* as z_end, but agent 5 gets no further than begin_request *)
Definition z_stuck : list (pscript SH) := z_rest ++
  [ Sc (L (PutG (P:=SH) 5 0 6 false)); Sc (L (Go 5)); Sc (L (Go 5)); Sc (L (Go 5)); Sc (L (Go 5)); Sc (L (Go 5)); Sc (Run 2) ].
(* the panics of an execution *)
Definition panics_of {P : Params} (hs : list (happening P)) : list (nat * spoint) :=
  omap (λ h, match h with Panics a q => Some (a, q) | Step _ => None end) hs.

(* ---- with the locks of the standard library ---- *)
Lemma std_steps {P : Params} dbg (y : sys P) ls y' : steps dbg y ls y' → std_run dbg (Std y []) (Std y' []).
Proof.
  induction 1 as [|y ls y1 lb y2 _ IH Hc]; [constructor|]. eapply sd_step; [done|done|]. intros. by intros ?%elem_of_nil.
Qed.
(* agent 3 inserts key 7 and panics in Eq; agent 1 drops its guard *)
Definition z_under : sys SH := on (z_wait ++ [ ins_ 7 4; L (Go 3) ]).
Definition boom_ (y : sys SH) a n : sys SH := match booms y a !! n with Some (_, y') => y' | None => y end.
Lemma boom_in y a n q : fst <$> (booms y a !! n) = Some q → (q, boom_ y a n) ∈ booms y a.
Proof.
  unfold boom_. intros H. apply (elem_of_list_lookup_2 _ n). destruct (booms y a !! n) as [[q' y']|]; [|done]. by injection H as ->.
Qed.
Definition z_bad : sys SH := boom_ z_under 3 1.
Definition step_ (y : sys SH) lb : sys SH := match cstep true y lb with Some (Ok y') => y' | _ => y end.
Lemma step_in y lb : match cstep true y lb with Some (Ok _) => true | _ => false end = true → cstep true y lb = Some (Ok (step_ y lb)).
Proof. unfold step_. by destruct (cstep true y lb) as [[y'|]|]. Qed.
Definition z_drop : sys SH := step_ z_bad (DropG 1).
Definition z_still : sys SH := gone z_drop 1.
