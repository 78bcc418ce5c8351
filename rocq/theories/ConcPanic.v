(* Model of panics in user code in the sync cache used by many threads and futures at the same time,
   with the locks of parking_lot: unwinding releases the locks a thread holds, and nothing is
   poisoned (rw_lock.rs:3-16). The thread that panicked is gone, or its caller catches the panic and
   goes on with other calls, which are other agents. *)
From stdpp Require Import prelude list functions.
From Verif Require Export Conc SyncCrash.

Section concpanic.
Context {P : Params} {B : Build}.
Notation K := (K P). Notation V := (V P). Notation RS := (RS P).
Notation shard := (shard P). Notation sys := (sys P). Notation pc := (pc P).
Implicit Types (s : shard) (k : K) (v : V) (rs : RS) (p : plh) (a : nat) (j : nat) (y : sys) (x : pc).

(* The points of a critical section at which user code runs, in the order of Crash.v, each with what
   a panic there leaves of the shard: SyncCrash.v, inner; shard.rs:1012-1068 upsert_placeholder;
   shard.rs:861-921 replace_placeholder. remove_placeholder runs none. *)
Definition sect_points s (z : sect P) : list (point * shard) :=
  match z with
  | XCmd m => (inner s m).1
  | XJoin k => (c_upsert_placeholder s (hash P k) k).1
  | XFill rs p ref v _ => (c_replace_placeholder s (Lcs rs []) p ref v).1
  | XDrop _ => []
  end.
(* the critical section an agent is in. get compares keys under the read lock: shard.rs:488-506 *)
Definition running x : option (nat * sect P) :=
  match x with
  | PIn j m | PAllIn m j _ => Some (j, XCmd m)
  | GIn j k _ => Some (j, XCmd (CGet k))
  | JIn j k _ => Some (j, XJoin k)
  | FillIn j p rs v wl ref => Some (j, XFill rs p ref v wl)
  | _ => None
  end.
(* The call ended in a panic. As far as other agents can see, this agent has returned; the result is
   not used for anything. *)
Definition gone y a : sys := goto y a (ADone RetCancel).
(* upsert_placeholder panicked after it had made the placeholder and before the hash table knew it
   (PUpsertGrow in Crash.v). Nobody can ever refer to these loads. The code leaves their state
   alone; here it is set to Terminated, to say so. *)
Definition voided y j (n n' : N) : sys :=
  Sys (y_cache y) (λ l, if decide (l.1 = j ∧ (n ≤ l.2)%N ∧ (l.2 < n')%N) then PSt [] Terminated else y_ph y l)
    (y_agents y) (y_now y) (y_log y).
Definition torn y a j s s' : sys := gone (put_shard (voided y j (sh_nph s) (sh_nph s')) j s') a.

(* Where user code can panic in the next step of agent a, and what the panic leaves.
   - PWant, GWant: sync.rs:238-341, the key is hashed, and begin_request runs, before the lock is
     taken.
   - IIn: sync_placeholder.rs:304 clones the value under the lock of the state. The state is as
     before, unwinding drops the lock and then the guard: drop_uninserted_slow.
   - A loader that panics while its guard is alive is the label DropG of Conc.v.
   Not here, because a panic then leaves what the step itself leaves, and only the result is not
   delivered: cloning a value that is returned (sync.rs:252, 262, 362, 405; sync_placeholder.rs:175,
   185, 213, 455) and end_request. Not here either: begin_request in insert of a guard (sync_placeholder.rs:317),
   which leaves what an agent leaves that stops at FillWant (ConcPanicSpec.v, at_rest_but), and
   wakers. *)
Definition booms y a : list (spoint * sys) :=
  match y_agents y !! a with
  | None => []
  | Some ag =>
      match a_pc ag with
      | PWant j m => (SP PHash, gone y a) :: if opens m then [(SP PBegin, gone y a)] else []
      | GWant j k c => [(SP PHash, gone y a)]
      | IIn j p rs v wl => [(SClone, goto y a (DWant j p))]
      | x =>
          match running x with
          | None => []
          | Some (j, z) =>
              match sc_shards (y_cache y) !! j with
              | None => []
              | Some s => (λ '(q, s'), (SP q, torn y a j s s')) <$> sect_points s z
              end
          end
      end
  end.
End concpanic.
