(* Model of /repo/src/sync.rs and /repo/src/sync_placeholder.rs used by any number of threads and
   futures at the same time.

   An agent is one API call, from its start to its end; when the call returns a guard, the agent
   lives on as the guard, until the guard's insert or drop returns. The program counter of an agent
   says which lock it waits for, which locks it holds, and what it does next. Taking a lock is a step
   of its own, enabled when no other agent holds the lock in a conflicting mode; what is done under
   the lock and the release are one step, except where the code takes another lock or notifies
   a waiter in between. Atomics are sequentially consistent. *)
From stdpp Require Export functions.
From Verif Require Export SyncSpec.

(* a pending load: the shard it belongs to, and its identity there *)
Definition loc : Type := nat * N.

(* ---- locks ---- *)
Inductive lmode := MR | MW.
(* the RwLock of a shard, the RwLock of a placeholder's state, the RwLock of a task's waiter *)
Inductive lock := LShard (j : nat) | LState (l : loc) | LWaiter (a : nat).
Global Instance lmode_eq_dec : EqDecision lmode. Proof. solve_decision. Defined.
Global Instance lock_eq_dec : EqDecision lock. Proof. solve_decision. Defined.
Definition compat (x y : lock * lmode) : bool :=
  if decide (x.1 = y.1) then match x.2, y.2 with MR, MR => true | _, _ => false end else true.

(* sync_placeholder.rs:93-97 enum Waiter: the waiting agent, and whether it is a task *)
Definition waiter : Type := nat * bool.

Section conc.
Context {P : Params} {B : Build}.
Notation K := (K P). Notation V := (V P). Notation RS := (RS P).
Notation shard := (shard P). Notation scache := (scache P). Notation out := (out P).
Implicit Types (s : shard) (k : K) (v : V) (rs : RS) (p : plh) (a b : nat) (l : loc) (j : nat).

(* sync_placeholder.rs:68-76 enum LoadingState *)
Inductive loading := Loading | Inserted v | Terminated.
(* sync_placeholder.rs:60-66 struct State. The state of a load that was not yet started is that of
   a new one (sync_placeholder.rs:25-34). *)
Record pst := PSt { ps_waiters : list waiter; ps_load : loading }.
Definition pst_new : pst := PSt [] Loading.

(* ---- calls ---- *)
Inductive call :=
  | KCmd (m : cmd P)               (* contains_key .. clear: the plain calls *)
  | KLoad k (to : option N)        (* get_value_or_guard(key, timeout) *)
  | KFut k.                        (* get_value_or_guard_async(key): a future *)
(* what a call returns, except a guard; [None]: the value was cached, [Some l]: it was provided to
   the load l *)
Inductive ret :=
  | RetOut (o : out)               (* a plain call, or insert of a guard returned Ok *)
  | RetVal v (from : option loc)
  | RetTimeout
  | RetCancel                      (* the future was dropped *)
  | RetStale v                     (* insert of a guard returned Err *)
  | RetDrop.                       (* the guard, or a future that had been given one, was dropped *)

(* who is in get: sync.rs:247 get, 352 get_value_or_guard, 396 get_value_or_guard_async *)
Inductive gcont := CRet | CJoin (to : option N) | CFut (wk : N).
(* who is in join or in the first poll *)
Inductive jmode := JThread (to : option N) | JTask (wk : N).
(* who called start_loading *)
Inductive smode := SNewLoad | SRejoin | SDropFut.
(* a waiting thread: no timeout, or the start, the timeout and the time up to which it is parked *)
Definition parking : Type := option (N * N * N).
(* who notifies: insert with its arguments and [referenced], or drop *)
Inductive nmode := NIns rs v (wl referenced : bool) | NDrop.

Inductive pc :=
  (* plain calls *)
  | PWant j (m : cmd P) | PIn j (m : cmd P)
  | PAll (m : cmd P) (js : list nat) | PAllIn (m : cmd P) j (js : list nat)
  (* get, shard.rs:488-506, under the shard's read lock *)
  | GWant j k (c : gcont) | GIn j k (c : gcont)
  | GBump j (i : nat) v (c : gcont) | GHit j v (c : gcont) | GMiss j k (c : gcont)
  (* sync_placeholder.rs:211-218, 451-471 *)
  | JWant j k (md : jmode) | JIn j k (md : jmode)
  (* start_loading's debug_assert, sync_placeholder.rs:139-142 *)
  | SWant j p (sm : smode) | SIn j p (sm : smode)
  (* join_internal, not notified: 179-188 *)
  | JPush j p (md : jmode) | JPushIn j p (md : jmode)
  (* waiting: 237-268 *)
  | JStart j p (to : N)
  | JPark j p (tm : parking) | JChk j p (tm : parking)
  | JElapsed j p (st to : N) | JTime j p | JTimeIn j p
  (* notified: 269-270 and 487, then join_internal 168-177 *)
  | JRe j p | JReS j p | JReIn j p
  (* futures *)
  | FNew j k | FIdle j p (wk : N)
  | FPoll j p (wk : N) | FPollIn j p (wk : N)
  | FDrop j p | FDropS j p | FDropIn j p
  (* a guard, and insert: 300-322 *)
  | AGuard j p
  | IWant j p rs v (wl : bool) | IIn j p rs v (wl : bool)
  (* Waiter::notify: 101-113 *)
  | NGo j p (ws : list waiter) (nm : nmode)
  | NUnpark j p b (ws : list waiter) (nm : nmode)
  | NTask j p b (ws : list waiter) (nm : nmode)
  | FillWant j p rs v (wl referenced : bool) | FillIn j p rs v (wl referenced : bool)
  (* drop_uninserted_slow: 327-338 *)
  | DWant j p | DS j p | DIn j p
  | ADone (r : ret).

(* An agent: its call and when it started (ghost), its program counter, its notification flag (the
   AtomicBool of join, or TaskWaiter.notified), the park token of its thread, TaskWaiter.waker, and
   the waker that was woken last (ghost). *)
Record agent := Agent {
  a_call : call; a_born : N;
  a_pc : pc; a_flag : bool; a_token : bool; a_waker : N; a_woken : option N }.

(* What happened, with the agent that did it (ghost):
   - EvCall c: the call c began;
   - EvSec j x r: a critical section of shard j did x, with result r;
   - EvWait l: it queued up for the load l;
   - EvPut l v: it provided the value v to the load l;
   - EvGive l b: it gave the guard of l to b;
   - EvEnd l: it gave up the load l, with nobody waiting;
   - EvNote b: it notified b;
   - EvGuard l: it became the guard of l;
   - EvRet r: its call, or the insert or drop of its guard, returned r. *)
Inductive cevent :=
  | EvCall (c : call) | EvSec j (x : sop P) (r : sres P) | EvWait l | EvPut l v | EvGive l b | EvEnd l | EvNote b
  | EvGuard l | EvRet (r : ret).

Record sys := Sys {
  y_cache : scache; y_ph : loc → pst; y_agents : list agent; y_now : N; y_log : list (nat * cevent) }.
Implicit Types (y : sys).

(* ---- field updates ---- *)
Definition with_cache y c := Sys c (y_ph y) (y_agents y) (y_now y) (y_log y).
Definition with_ph y l x := Sys (y_cache y) (<[l := x]> (y_ph y)) (y_agents y) (y_now y) (y_log y).
Definition with_agent y a (f : agent → agent) :=
  Sys (y_cache y) (y_ph y) (alter f a (y_agents y)) (y_now y) (y_log y).
Definition with_now y t := Sys (y_cache y) (y_ph y) (y_agents y) t (y_log y).
Definition logged y a (e : cevent) :=
  Sys (y_cache y) (y_ph y) (y_agents y) (y_now y) (y_log y ++ [(a, e)]).
Definition add_agent y (ag : agent) :=
  Sys (y_cache y) (y_ph y) (y_agents y ++ [ag]) (y_now y) (y_log y).
Definition set_apc (x : pc) (ag : agent) := Agent (a_call ag) (a_born ag) x (a_flag ag) (a_token ag) (a_waker ag) (a_woken ag).
Definition set_flag (x : bool) (ag : agent) := Agent (a_call ag) (a_born ag) (a_pc ag) x (a_token ag) (a_waker ag) (a_woken ag).
Definition set_token (x : bool) (ag : agent) := Agent (a_call ag) (a_born ag) (a_pc ag) (a_flag ag) x (a_waker ag) (a_woken ag).
Definition set_waker (x : N) (ag : agent) := Agent (a_call ag) (a_born ag) (a_pc ag) (a_flag ag) (a_token ag) x (a_woken ag).
Definition set_woken (x : option N) (ag : agent) := Agent (a_call ag) (a_born ag) (a_pc ag) (a_flag ag) (a_token ag) (a_waker ag) x.
Definition goto y a (x : pc) : sys := with_agent y a (set_apc x).
Definition finish y a (r : ret) : sys := logged (goto y a (ADone r)) a (EvRet r).
Definition at_load y l : loading := ps_load (y_ph y l).
Definition waiting_on y l : list waiter := ps_waiters (y_ph y l).

(* ---- locks held ---- *)
(* The agent itself is needed for the lock of its own task waiter. *)
Definition pl j p : loc := (j, ph_id p).
Definition s_holds j (sm : smode) : list (lock * lmode) :=
  match sm with SNewLoad => [(LShard j, MW)] | SRejoin => [(LShard j, MR)] | SDropFut => [] end.
Definition n_holds j p (nm : nmode) : list (lock * lmode) :=
  match nm with
  | NIns _ _ _ _ => [(LState (pl j p), MW)]
  | NDrop => [(LShard j, MW); (LState (pl j p), MW)]
  end.
Definition holds a (x : pc) : list (lock * lmode) :=
  match x with
  | PIn j m => [(LShard j, if reads m then MR else MW)]
  | PAllIn _ j _ => [(LShard j, MW)]
  | GIn j _ _ | GBump j _ _ _ | GHit j _ _ | GMiss j _ _ => [(LShard j, MR)]
  | JIn j _ _ => [(LShard j, MW)]
  | SWant j _ sm => s_holds j sm
  | SIn j p sm => s_holds j sm ++ [(LState (pl j p), MW)]
  | JPush j _ _ => [(LShard j, MW)]
  | JPushIn j p _ => [(LShard j, MW); (LState (pl j p), MW)]
  | JTimeIn j p => [(LState (pl j p), MW)]
  | JReS j _ => [(LShard j, MR)]
  | JReIn j p => [(LShard j, MR); (LState (pl j p), MR)]
  | FPollIn _ _ _ => [(LWaiter a, MW)]
  | FDropS j p => [(LState (pl j p), MW)]
  | FDropIn j p => [(LState (pl j p), MW); (LWaiter a, MR)]
  | IIn j p _ _ _ => [(LState (pl j p), MW)]
  | NGo j p _ nm | NUnpark j p _ _ nm => n_holds j p nm
  | NTask j p b _ nm => n_holds j p nm ++ [(LWaiter b, MW)]
  | FillIn j _ _ _ _ _ => [(LShard j, MW)]
  | DS j _ => [(LShard j, MW)]
  | DIn j p => [(LShard j, MW); (LState (pl j p), MW)]
  | _ => []
  end.
(* the lock the agent waits for *)
Definition wants a (x : pc) : option (lock * lmode) :=
  match x with
  | PWant j m => Some (LShard j, if reads m then MR else MW)
  | PAll _ (j :: _) => Some (LShard j, MW)
  | GWant j _ _ => Some (LShard j, MR)
  | JWant j _ _ => Some (LShard j, MW)
  | SWant j p _ => Some (LState (pl j p), MW)
  | JPush j p _ => Some (LState (pl j p), MW)
  | JTime j p => Some (LState (pl j p), MW)
  | JRe j _ => Some (LShard j, MR)
  | JReS j p => Some (LState (pl j p), MR)
  | FPoll _ _ _ => Some (LWaiter a, MW)
  | FDrop j p => Some (LState (pl j p), MW)
  | FDropS _ _ => Some (LWaiter a, MR)
  | IWant j p _ _ _ => Some (LState (pl j p), MW)
  | NGo _ _ ((b, true) :: _) _ => Some (LWaiter b, MW)
  | FillWant j _ _ _ _ _ => Some (LShard j, MW)
  | DWant j _ => Some (LShard j, MW)
  | DS j p => Some (LState (pl j p), MW)
  | _ => None
  end.
(* no agent, the asking one included, holds the lock in a conflicting mode *)
Definition free y (x : lock * lmode) : bool :=
  forallb (λ '(b, ag), forallb (compat x) (holds b (a_pc ag))) (imap pair (y_agents y)).
(* where an agent that got the lock it wanted goes on *)
Definition entered (x : pc) : pc :=
  match x with
  | PWant j m => PIn j m
  | PAll m (j :: js) => PAllIn m j js
  | GWant j k c => GIn j k c
  | JWant j k md => JIn j k md
  | SWant j p sm => SIn j p sm
  | JPush j p md => JPushIn j p md
  | JTime j p => JTimeIn j p
  | JRe j p => JReS j p
  | JReS j p => JReIn j p
  | FPoll j p wk => FPollIn j p wk
  | FDrop j p => FDropS j p
  | FDropS j p => FDropIn j p
  | IWant j p rs v wl => IIn j p rs v wl
  | NGo j p ((b, true) :: ws) nm => NTask j p b ws nm
  | FillWant j p rs v wl ref => FillIn j p rs v wl ref
  | DWant j p => DS j p
  | DS j p => DIn j p
  | x => x
  end.

(* ---- what is done under the locks ---- *)
(* a critical section that is one step *)
Definition section y a j (x : sect P) : res (sys * xret P) :=
  let! (c, r) := on_shard (y_cache y) j x in
  Ok (logged (with_cache y c) a (EvSec j (op_of x) (res_of r)), r).
(* A step of get on shard j. *)
Definition read_shard y j : res shard := unwrap (sc_shards (y_cache y) !! j).
Definition put_shard y j s : sys := with_cache y (with_shard (y_cache y) j s).
(* resident.referenced.fetch_add(1), shard.rs:498: the AtomicU16 wraps around *)
Definition fetch_add s (i : nat) : res shard :=
  let! e := entry_at s i in
  match e with
  | Resident r => Ok (set_entry s i (Resident (set_key_ref r ((r_ref r + 1) mod 65536))))
  | _ => Fail UB
  end.
(* shard.rs:492-505: the lookup, then the counter, then the statistics *)
Definition get_found y a j k (c : gcont) : res sys :=
  let! s := read_shard y j in
  let! o := search_resident s (hash P k) k in
  let ev o := EvSec j (OCmd (CGet k)) (SO (plain (RVal o))) in
  match o with
  | Some (i, r) =>
      Ok (logged (goto y a (if (r_ref r <? MAX_F)%N then GBump j i (r_val r) c else GHit j (r_val r) c))
            a (ev (Some (r_val r))))
  | None => Ok (logged (goto y a (GMiss j k c)) a (ev None))
  end.
Definition get_hit y a j v (c : gcont) : res sys :=
  let! s := read_shard y j in
  let y := put_shard y j (record_hit s) in
  Ok (finish y a (match c with CRet => RetOut (plain (RVal (Some v))) | _ => RetVal v None end)).
Definition get_miss y a j k (c : gcont) : res sys :=
  let! s := read_shard y j in
  let y := put_shard y j (record_miss s) in
  Ok match c with
     | CRet => finish y a (RetOut (plain (RVal None)))
     | CJoin to => goto y a (JWant j k (JThread to))
     | CFut wk => goto y a (JWant j k (JTask wk))
     end.

(* The guard is there. sync_placeholder.rs:215, 173, 460: it is returned; 404: it is dropped. *)
Definition start_done y a j p (sm : smode) : sys :=
  match sm with
  | SDropFut => goto y a (DWant j p)
  | _ => logged (goto y a (AGuard j p)) a (EvGuard (pl j p))
  end.
(* sync_placeholder.rs:134-149 start_loading; the debug_assert takes the state lock *)
Definition start_loading (dbg : bool) y a j p (sm : smode) : sys :=
  if dbg then goto y a (SWant j p sm) else start_done y a j p sm.

(* sync_placeholder.rs:178-188; waiter_fn makes a notification flag that is not set (227, 507-510) *)
Definition push_waiter y a j p (md : jmode) : res sys :=
  match at_load y (pl j p) with
  | Loading =>
      let task := match md with JTask _ => true | JThread _ => false end in
      let y := with_ph y (pl j p) (PSt (waiting_on y (pl j p) ++ [(a, task)]) Loading) in
      let y := with_agent y a (set_flag false) in
      let y := match md with
               | JThread None => goto y a (JPark j p None)
               | JThread (Some to) => goto y a (JStart j p to)
               | JTask wk => goto (with_agent y a (set_waker wk)) a (FIdle j p wk)
               end in
      Ok (logged y a (EvWait (pl j p)))
  | Inserted v => Ok (finish y a (RetVal v (Some (pl j p))))
  | Terminated => Fail Panic
  end.
(* waiters.swap_remove(position(is me).unwrap()): 256-258, 407-408 *)
Definition swap_remove {A} (l : list A) (i : nat) : list A :=
  match list.last l with
  | Some x => if decide (S i = length l) then take i l else <[i := x]> (take (length l - 1) l)
  | None => l
  end.
Definition leave y j p (w : waiter) : res sys :=
  let! (i, _) := unwrap (list_find (w =.) (waiting_on y (pl j p))) in
  Ok (with_ph y (pl j p) (PSt (swap_remove (waiting_on y (pl j p)) i) (at_load y (pl j p)))).

(* Waiter::notify. Thread: set the flag, then unpark; task: set the flag and wake, under its lock *)
Definition note_thread y a b : sys := logged (with_agent y b (set_flag true)) a (EvNote b).
Definition note_task y a b : sys :=
  logged (with_agent y b (λ ag, set_woken (Some (a_waker ag)) (set_flag true ag))) a (EvNote b).

(* ---- the steps of an agent ---- *)
Definition parked_at (t : N) (tm : N * N) : parking := Some (tm.1, tm.2, t + (t - tm.1))%N.
Definition act (dbg : bool) y a (ag : agent) : option (res sys) :=
  match a_pc ag with
  | PIn j m => Some (
      let! (y, r) := section y a j (XCmd m) in
      match r with XO o => Ok (finish y a (RetOut o)) | _ => Fail Panic end)
  | PAll m [] => Some (Ok (finish y a (RetOut (plain RUnit))))
  | PAllIn m j js => Some (
      let! (y, r) := section y a j (XCmd m) in Ok (goto y a (PAll m js)))
  | GIn j k c => Some (get_found y a j k c)
  | GBump j i v c => Some (
      let! s := read_shard y j in
      let! s := fetch_add s i in
      Ok (goto (put_shard y j s) a (GHit j v c)))
  | GHit j v c => Some (get_hit y a j v c)
  | GMiss j k c => Some (get_miss y a j k c)
  | JIn j k md => Some (
      let! (y, r) := section y a j (XJoin k) in
      match r with
      | XHit v => Ok (finish y a (RetVal v None))
      | XNew p => Ok (start_loading dbg y a j p SNewLoad)
      | XWait p => Ok (goto y a (JPush j p md))
      | _ => Fail Panic
      end)
  | SIn j p sm => Some (
      match at_load y (pl j p) with Loading => Ok (start_done y a j p sm) | _ => Fail Panic end)
  | JPushIn j p md => Some (push_waiter y a j p md)
  | JStart j p to => Some (Ok (goto y a (JPark j p (parked_at (y_now y) (y_now y, to)))))
  (* park returns because the thread was unparked *)
  | JPark j p tm =>
      if a_token ag then Some (Ok (goto (with_agent y a (set_token false)) a (JChk j p tm))) else None
  | JChk j p tm => Some (Ok (goto y a (
      if a_flag ag then JRe j p
      else match tm with None => JPark j p None | Some (st, to, _) => JElapsed j p st to end)))
  (* the clock is read once for start.elapsed() and for the next park_timeout: 241, 246 *)
  | JElapsed j p st to => Some (Ok (goto y a (
      if (y_now y - st <? to)%N then JPark j p (parked_at (y_now y) (st, to)) else JTime j p)))
  | JTimeIn j p => Some (
      if a_flag ag then Ok (goto y a (JRe j p))
      else let! y := leave y j p (a, false) in Ok (finish y a RetTimeout))
  | JReIn j p => Some (
      match at_load y (pl j p) with
      | Loading => Ok (start_loading dbg y a j p SRejoin)
      | Inserted v => Ok (finish y a (RetVal v (Some (pl j p))))
      | Terminated => Fail Panic
      end)
  | FPollIn j p wk => Some (Ok (
      if a_flag ag then goto (with_agent y a (set_flag false)) a (JRe j p)
      else goto (with_agent y a (set_waker wk)) a (FIdle j p wk)))
  | FDropIn j p => Some (
      if a_flag ag then
        match at_load y (pl j p) with
        | Loading => Ok (start_loading dbg y a j p SDropFut)
        | _ => Ok (finish y a RetCancel)
        end
      else let! y := leave y j p (a, true) in Ok (finish y a RetCancel))
  | IIn j p rs v wl =>
      let ws := waiting_on y (pl j p) in
      let y := with_ph y (pl j p) (PSt [] (Inserted v)) in
      let nm := NIns rs v wl (match ws with [] => false | _ => true end) in
      Some (Ok (logged (goto y a (NGo j p ws nm)) a (EvPut (pl j p) v)))
  | NGo j p [] (NIns rs v wl ref) => Some (Ok (goto y a (FillWant j p rs v wl ref)))
  | NGo j p [] NDrop => Some (Ok (finish y a RetDrop))
  | NGo j p ((b, false) :: ws) nm => Some (Ok (goto (note_thread y a b) a (NUnpark j p b ws nm)))
  | NUnpark j p b ws nm => Some (Ok (goto (with_agent y b (set_token true)) a (NGo j p ws nm)))
  | NTask j p b ws nm => Some (Ok (goto (note_task y a b) a (NGo j p ws nm)))
  | FillIn j p rs v wl ref => Some (
      let! (y, r) := section y a j (XFill rs p ref v wl) in
      match r with
      | XO o => Ok (finish y a (RetOut o))
      | XStale v => Ok (finish y a (RetStale v))
      | _ => Fail Panic
      end)
  | DIn j p => Some (
      match list.last (waiting_on y (pl j p)) with
      | Some w =>
          let! _ := match at_load y (pl j p) with Loading => Ok tt | _ => if dbg then Fail Panic else Ok tt end in
          let y := with_ph y (pl j p) (PSt (take (length (waiting_on y (pl j p)) - 1) (waiting_on y (pl j p))) (at_load y (pl j p))) in
          Ok (logged (goto y a (NGo j p [w] NDrop)) a (EvGive (pl j p) w.1))
      | None =>
          let y := with_ph y (pl j p) (PSt [] Terminated) in
          let! (y, _) := section y a j (XDrop p) in
          Ok (finish (logged y a (EvEnd (pl j p))) a RetDrop)
      end)
  | _ => None
  end.
(* A step of the agent: it takes the lock it waits for, or acts. [None]: it cannot move now. *)
Definition go (dbg : bool) y a : option (res sys) :=
  match y_agents y !! a with
  | None => None
  | Some ag =>
      match wants a (a_pc ag) with
      | Some x => if free y x then Some (Ok (goto y a (entered (a_pc ag)))) else None
      | None => act dbg y a ag
      end
  end.

(* ---- the system ---- *)
Inductive label :=
  | Spawn (c : call)                     (* somebody starts a call *)
  | Go a                                 (* agent a makes a step *)
  | Wake a                               (* a parked thread wakes up by itself, or at its deadline *)
  | Tick (d : N)                         (* time passes *)
  | Poll a (wk : N)                      (* a future is polled with the waker wk *)
  | DropFut a                            (* a future is dropped *)
  | PutG a rs v (wl : bool)              (* insert is called on a guard; begin_request gave rs *)
  | DropG a.                             (* a guard is dropped *)
Definition first_pc y (c : call) : option (res pc) :=
  match c with
  | KCmd m =>
      if sync_cmd m then
        Some match key_of m with
             | Some k =>
                 let! j := unwrap (shard_for (y_cache y) k) in
                 Ok match m with CGet _ => GWant j k CRet | _ => PWant j m end
             | None => Ok (PAll m (seq 0 (length (sc_shards (y_cache y)))))
             end
      else None
  | KLoad k to => Some (let! j := unwrap (shard_for (y_cache y) k) in Ok (GWant j k (CJoin to)))
  | KFut k => Some (let! j := unwrap (shard_for (y_cache y) k) in Ok (FNew j k))
  end.
Definition cstep (dbg : bool) y (lb : label) : option (res sys) :=
  match lb with
  | Spawn c =>
      match first_pc y c with
      | Some r => Some (
          let! x := r in
          Ok (logged (add_agent y (Agent c (y_now y) x false false 0 None)) (length (y_agents y)) (EvCall c)))
      | None => None
      end
  | Go a => go dbg y a
  | Wake a =>
      match a_pc <$> y_agents y !! a with
      | Some (JPark j p tm) => Some (Ok (goto y a (JChk j p tm)))
      | _ => None
      end
  | Tick d => Some (Ok (with_now y (y_now y + d)))
  | Poll a wk =>
      match a_pc <$> y_agents y !! a with
      | Some (FNew j k) => Some (Ok (goto y a (GWant j k (CFut wk))))
      | Some (FIdle j p _) => Some (Ok (goto y a (FPoll j p wk)))
      | _ => None
      end
  | DropFut a =>
      match a_pc <$> y_agents y !! a with
      | Some (FNew j k) => Some (Ok (finish y a RetCancel))
      | Some (FIdle j p _) => Some (Ok (goto y a (FDrop j p)))
      | _ => None
      end
  | PutG a rs v wl =>
      match a_pc <$> y_agents y !! a with
      | Some (AGuard j p) => Some (Ok (goto y a (IWant j p rs v wl)))
      | _ => None
      end
  | DropG a =>
      match a_pc <$> y_agents y !! a with
      | Some (AGuard j p) => Some (Ok (goto y a (DWant j p)))
      | _ => None
      end
  end.

Definition sys_new (budget ghosts cap e : N) : sys :=
  Sys (sc_fresh budget ghosts cap (2 ^ e)) (λ _, pst_new) [] 0 [].
(* an execution *)
Inductive steps (dbg : bool) : sys → list label → sys → Prop :=
  | st_nil y : steps dbg y [] y
  | st_snoc y ls y1 lb y2 : steps dbg y ls y1 → cstep dbg y1 lb = Some (Ok y2) → steps dbg y (ls ++ [lb]) y2.
End conc.
Arguments loading : clear implicits. Arguments pst : clear implicits. Arguments call : clear implicits.
Arguments ret : clear implicits. Arguments pc : clear implicits. Arguments agent : clear implicits.
Arguments cevent : clear implicits. Arguments sys : clear implicits. Arguments label : clear implicits.
Arguments nmode : clear implicits.
