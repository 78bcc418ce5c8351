(* Specification for C62, concurrent: the same threads and tasks, with other request states. *)
From Verif Require Export Listen Conc ConcSpec.

Section listenconc.
Context {P : Params}.

(* the same plain call; [m' = m] is for types without request states, in which restate has no use *)
Definition same_plain (m m' : cmd P) : Prop := m' = m ∨ same_but_state m m'.
(* the same call *)
Definition same_kcall (c c' : Conc.call P) : Prop :=
  match c, c' with KCmd m, KCmd m' => same_plain m m' | _, _ => c' = c end.
(* the same label of the schedule: the same agent makes the same step *)
Definition same_label (x x' : label P) : Prop :=
  match x, x' with
  | Spawn c, Spawn c' => same_kcall c c'
  | PutG a _ v wl, PutG a' _ v' wl' => a' = a ∧ v' = v ∧ wl' = wl
  | _, _ => x' = x
  end.
Definition same_kret (r r' : Conc.ret P) : Prop :=
  match r, r' with RetOut o, RetOut o' => same_seen o o' | _, _ => r' = r end.
Definition same_op (x x' : sop P) : Prop :=
  match x, x' with
  | OCmd m, OCmd m' => same_plain m m'
  | OFill _ id v wl, OFill _ id' v' wl' => id' = id ∧ v' = v ∧ wl' = wl
  | _, _ => x' = x
  end.
Definition same_res (x x' : sres P) : Prop := match x, x' with SO o, SO o' => same_seen o o' | _, _ => x' = x end.
(* the same event, by the same agent *)
Definition same_event (e e' : cevent P) : Prop :=
  match e, e' with
  | EvCall c, EvCall c' => same_kcall c c'
  | EvSec j x r, EvSec j' x' r' => j' = j ∧ same_op x x' ∧ same_res r r'
  | EvRet r, EvRet r' => same_kret r r'
  | _, _ => e' = e
  end.
Definition same_entry (x x' : nat * cevent P) : Prop := x'.1 = x.1 ∧ same_event x.2 x'.2.
End listenconc.
