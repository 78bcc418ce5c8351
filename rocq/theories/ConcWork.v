(* The work of evictions in the sync cache used by many threads and futures at the same time. *)
From stdpp Require Import prelude list.
From Verif Require Export Work ConcPanic.

Section concwork.
Context {P : Params} {B : Build}.
Notation sys := (sys P).

(* the calls of user code of kind f that the next step of the system makes under the lock of a shard *)
Definition step_effort (f : point → bool) (y : sys) (lb : label P) : N :=
  match lb with
  | Go a =>
      match y_agents y !! a with
      | None => 0
      | Some ag =>
          match running (a_pc ag) with
          | None => 0
          | Some (j, z) =>
              match sc_shards (y_cache y) !! j with
              | None => 0
              | Some s => count f (sect_points s z)
              end
          end
      end
  | _ => 0
  end.
(* ... and the execution ls, up to a step that fails or is not possible *)
Fixpoint conc_effort (f : point → bool) (dbg : bool) (y : sys) (ls : list (label P)) : N :=
  match ls with
  | [] => 0
  | lb :: ls => step_effort f y lb + match cstep dbg y lb with Some (Ok y') => conc_effort f dbg y' ls | _ => 0 end
  end.
(* how often a shard was used: how many critical sections there were *)
Definition is_use (ev : nat * cevent P) : bool := match ev.2 with EvSec _ _ _ => true | _ => false end.
Definition uses (g : list (nat * cevent P)) : N := N.of_nat (length (List.filter is_use g)).
(* How often a call can use a shard. A call with a key: once. A call on all shards: once each. A call that
   loads a value: get, join, and the end of the load by its guard, if it gets the guard. *)
Definition call_uses (e : N) (c : call P) : N :=
  match c with
  | KCmd m => match key_of m with Some _ => 1 | None => 2 ^ e end
  | KLoad _ _ | KFut _ => 3
  end.
(* ... the calls that are started in ls *)
Definition calls_use (e : N) (ls : list (label P)) : N :=
  foldr (λ lb n, (match lb with Spawn c => call_uses e c | _ => 0 end + n)%N) 0%N ls.
End concwork.
