(* A concrete observation of the sync cache that is not a snapshot. *)
From stdpp Require Import prelude list.
From Verif Require Export DemoConc WatchProofs.

Section follow.
Context {P : Params} (dbg : bool).
Implicit Types (y : sys P) (ls : list (label P)).
(* the state after each of the labels *)
Fixpoint states y ls : list (sys P) :=
  y :: match ls with
       | [] => []
       | lb :: ls => match cstep dbg y lb with Some (Ok y') => states y' ls | _ => [] end
       end.
Lemma states_head y ls : y ∈ states y ls.
Proof. destruct ls; left. Qed.
Lemma states_steps y l1 y1 : steps dbg y l1 y1 → ∀ l2 z, z ∈ states y1 l2 → z ∈ states y (l1 ++ l2).
Proof.
  induction 1 as [y|y ls y1 lb y2 H IH Hs]; intros l2 z Hz; [done|]. rewrite <-app_assoc. apply IH. simpl. right. by rewrite Hs.
Qed.
Lemma states_all (f : sys P → bool) y ls : forallb f (states y ls) = true →
  ∀ l1 l2 y1, ls = l1 ++ l2 → steps dbg y l1 y1 → f y1 = true.
Proof.
  intros H l1 l2 y1 -> Hs. rewrite forallb_forall in H. apply H. apply elem_of_list_In.
  eapply states_steps; [exact Hs|]. apply states_head.
Qed.
End follow.

Local Open Scope N_scope.
(* key 5 is cached, in shard 1 *)
Definition x_one : list (script SH) := [ call_ (P:=SH) (KCmd (CInsert (P:=SH) 0 5 6 false)); Run 0 ].
(* then key 4 is cached, in shard 0, and key 5 is removed *)
Definition x_move : list (script SH) :=
  [ call_ (P:=SH) (KCmd (CInsert (P:=SH) 0 4 6 false)); Run 1; call_ (P:=SH) (KCmd (CRemove (P:=SH) 5)); Run 2 ].
(* then two get calls, one of which finds something *)
Definition x_look : list (script SH) :=
  [ call_ (P:=SH) (KCmd (CGet (P:=SH) 4)); Run 3; call_ (P:=SH) (KCmd (CGet (P:=SH) 5)); Run 4 ].
Definition one : sys SH := on x_one.
Definition moved : sys SH := (play true one x_move).2.
Definition moving : list (label SH) := (play true one x_move).1.
Lemma moving_steps : steps true one moving moved.
Proof. apply play_steps. Qed.
