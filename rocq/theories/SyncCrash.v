(* Model of panics in user code in the sync cache, used by one thread at a time: what each call
   of sync.rs and sync_placeholder.rs leaves behind when user code panics in it and the caller
   catches the panic, and what the locks of rw_lock.rs do about it afterwards. *)
From Verif Require Export Sync Crash.

(* Where a call of the sync cache can panic: at the points of Crash.v, in Clone of a value, and
   where it finds the lock of a shard poisoned. *)
Inductive spoint := SP (q : point) | SClone | SPoisoned.

(* as M in Crash.v, for other states than shards *)
Definition T (X A : Type) : Type := list (spoint * X) * res A.
Definition tbind {X A C} (m : T X A) (f : A → T X C) : T X C :=
  match m.2 with
  | Ok a => (m.1 ++ (f a).1, (f a).2)
  | Fail e => (m.1, Fail e)
  end.
Definition tret {X A} (a : A) : T X A := ([], Ok a).
Definition tlift {X A} (r : res A) : T X A := ([], r).
Definition tpt {X} (q : spoint) (x : X) : T X () := ([(q, x)], Ok ()).
Definition twhen {X} (b : bool) (m : T X ()) : T X () := if b then m else tret ().
Notation "'let?' x := m 'in' f" := (tbind m (λ x, f)) (at level 200, x pattern, right associativity).

Section synccrash.
Context {P : Params} {B : Build}.
(* are the locks those of the standard library? Otherwise those of parking_lot. rw_lock.rs:3-16 *)
Context (std : bool).
Notation K := (K P). Notation V := (V P). Notation RS := (RS P). Notation out := (out P).
Notation shard := (shard P).
Implicit Types (s : shard) (k : K) (v : V) (rs : RS) (p : plh).

(* One shard behind its lock. The lock is poisoned when a thread panicked while it held it for
   writing. [ps_filled]: the states of the loads whose guard has stored the value in them
   (LoadingState::Inserted, sync_placeholder.rs:304), by the identity of the load. Entries of
   loads that are over stay in this list: identities are never used twice. *)
Record pshard := PShard { ps_shard : shard; ps_poisoned : bool; ps_filled : list (N * V) }.
Implicit Types (x : pshard).
Definition ps_set x s : pshard := PShard s (ps_poisoned x) (ps_filled x).
Definition ps_poison x : pshard := PShard (ps_shard x) (ps_poisoned x || std) (ps_filled x).
Definition ps_fill x p v : pshard := PShard (ps_shard x) (ps_poisoned x) ((ph_id p, v) :: ps_filled x).
Fixpoint assoc (id : N) (l : list (N * V)) : option V :=
  match l with [] => None | (i, v) :: l => if (i =? id)%N then Some v else assoc id l end.

(* rw_lock.rs:82-91 read, 109-118 write: unwrap() of the result of a poisoned standard lock
   panics; parking_lot knows no poisoning. A panic while the lock is held for writing poisons it,
   while it is held for reading it does not. *)
Definition locked {A} (w : bool) x (f : shard → M (shard * A)) : T pshard (pshard * A) :=
  if ps_poisoned x then ([(SPoisoned, x)], Fail Panic) else
  let m := f (ps_shard x) in
  ((λ '(q, s), (SP q, if w then ps_poison (ps_set x s) else ps_set x s)) <$> m.1,
   let! (s, a) := m.2 in Ok (ps_set x s, a)).

(* The part of a plain call that runs under the lock: sync.rs:243, 252, 262, 272, 300-302, 314,
   328-330, 339, 233. *)
Definition inner s (m : cmd P) : M (shard * out) :=
  match m with
  | CContains k => mbind (c_contains s (hash P k) k) (λ b, lift (Ok (s, plain (RBool b))))
  | CGet k => mbind (c_get s (hash P k) k) (λ '(s, o), lift (Ok (s, plain (RVal o))))
  | CPeek k => mbind (c_peek s (hash P k) k) (λ o, lift (Ok (s, plain (RVal o))))
  | CRemove k => mbind (c_remove s (hash P k) k) (λ '(s, o), lift (Ok (s, plain (RPair o))))
  | CReplace rs k v soft wl =>
      mbind (c_insert s (Lcs rs []) (hash P k) k v (Replace soft)) (λ '(s, l, o),
        match o with
        | None => lift (Ok (s, finished rs l wl (RPair None) false))
        | Some kv => lift (Ok (s, Out (RPair (Some kv)) (LBegin rs :: hooks l) false None))
        end)
  | CInsert rs k v wl =>
      mbind (c_insert s (Lcs rs []) (hash P k) k v Insert) (λ '(s, l, o),
        mbind (lift (assert (is_none o))) (λ _, lift (Ok (s, finished rs l wl RUnit false))))
  | CRetain f => mbind (c_retain s f) (λ s, lift (Ok (s, plain RUnit)))
  | CClear => lift (Ok (sh_clear s, plain RUnit))
  | CReserve => mbind (c_reserve s) (λ s, lift (Ok (s, plain RUnit)))
  | _ => lift (Fail Panic)
  end.
(* does the call open a lifecycle request? sync.rs:297, 328 *)
Definition opens (m : cmd P) : bool := match m with CReplace _ _ _ _ _ | CInsert _ _ _ _ => true | _ => false end.
(* ... and close it itself? sync.rs:282-284, 320-322 *)
Definition closes (m : cmd P) (o : out) : bool :=
  match m, o_ret o with
  | CReplace _ _ _ _ wl, RPair None => negb wl
  | CInsert _ _ _ wl, _ => negb wl
  | _, _ => false
  end.
Definition got_value (o : out) : bool := match o_ret o with RVal (Some _) => true | _ => false end.
(* sync.rs:238-341, one shard of: contains_key, get, peek, remove, replace, insert, retain, clear,
   reserve. get and peek clone the value under the lock. *)
Definition p_plain x (keyed : bool) (m : cmd P) : T pshard (pshard * out) :=
  let? _ := twhen (opens m) (tpt (SP PBegin) x) in
  let? _ := twhen keyed (tpt (SP PHash) x) in
  let? (x, o) := locked (negb (reads m)) x (λ s, inner s m) in
  let? _ := twhen (reads m && got_value o) (tpt SClone x) in
  let? _ := twhen (closes m o) (tpt (SP PEnd) x) in
  tret (x, o).

(* sync.rs:352-365 get_value_or_guard and sync_placeholder.rs:201-239 join, 179-187 join_internal: value.clone()
   in lines 213, 185 runs under the lock of the shard. *)
Definition p_value_or_guard x k : T pshard (pshard * (V + plh)) :=
  let? _ := tpt (SP PHash) x in
  let? (x, o) := locked false x (λ s, c_get s (hash P k) k) in
  match o with
  | Some v => let? _ := tpt SClone x in tret (x, inl v)
  | None =>
      let? (x, r) := locked true x (λ s, c_upsert_placeholder s (hash P k) k) in
      match r with
      | inl (_, v) => let? _ := tpt SClone (ps_poison x) in tret (x, inl v)
      | inr (p, true) => tret (x, inr p)
      | inr (p, false) =>
          match assoc (ph_id p) (ps_filled x) with
          | Some v => let? _ := tpt SClone (ps_poison x) in tret (x, inl v)
          | None => tlift (Fail NoFuel) (* waits for a load that nobody will complete *)
          end
      end
  end.

(* sync_placeholder.rs:327-346 drop of a guard that has not inserted, with nobody waiting *)
Definition p_drop x p : res pshard :=
  if ps_poisoned x then Fail Panic else
  let! s := remove_placeholder (ps_shard x) p in Ok (ps_set x s).
(* user code at q panics while the guard of p is alive, and the unwinding drops the guard; a
   second panic in there aborts the process *)
Definition unwind (q : spoint) x p : T pshard () :=
  (match p_drop x p with Ok x => [(q, x)] | Fail _ => [] end, Ok ()).
(* sync_placeholder.rs:288-322 insert, insert_with_lifecycle. value.clone() in line 304 runs under
   the lock of the load's own state: when this lock is poisoned, so that the guard's drop panics
   in line 330 while the first panic is unwinding, the process aborts. After line 315 the guard's
   drop does nothing. *)
Definition p_guard_insert x rs p v (wl : bool) : T pshard (pshard * out) :=
  let? _ := twhen (negb std) (unwind SClone x p) in
  let x := ps_fill x p v in
  let? _ := tpt (SP PBegin) x in
  let? (x, (l, o)) := locked true x (λ s,
    mbind (c_replace_placeholder s (Lcs rs []) p false v) (λ '(s, l, o), lift (Ok (s, (l, o))))) in
  match o with
  | None => let? _ := twhen (negb wl) (tpt (SP PEnd) x) in tret (x, finished rs l wl RGuard false)
  | Some _ => tlift (Fail Panic)
  end.
Definition p_guard x rs p (g : sguard P) : T pshard (pshard * out) :=
  match g with
  | SInsert v wl => p_guard_insert x rs p v wl
  | SDrop => let? x := tlift (p_drop x p) in tret (x, plain RGuard)
  end.

(* one call, on one shard it concerns *)
Definition ps_exec x (m : scmd P) : T pshard (pshard * out) :=
  match m with
  | SKey k m => p_plain x true m
  | SAll m => p_plain x false m
  | SValueOrGuard rs k g =>
      let? (x, r) := p_value_or_guard x k in
      match r with
      | inl v => tret (x, plain (RVal (Some v)))
      | inr p => p_guard x rs p g
      end
  | SGetOrInsert rs k w => (* sync.rs:370-388 *)
      let? (x, r) := p_value_or_guard x k in
      match r with
      | inl v => tret (x, plain (RVal (Some v)))
      | inr p =>
          let? _ := unwind (SP PLoader) x p in
          match w with
          | None => let? (x, _) := p_guard x rs p SDrop in tret (x, Out RErr [] true None)
          | Some v =>
              let? _ := unwind SClone x p in (* line 383 *)
              let? (x, o) := p_guard x rs p (SInsert v false) in
              tret (x, Out (RVal (Some v)) (o_log o) true None)
          end
      end
  end.

(* ---- the whole cache ---- *)
Record pcache := PCache { pc_shards : list pshard; pc_mask : N }.
Implicit Types (c : pcache).
Definition pc_with c (j : nat) x : pcache := PCache (<[j := x]> (pc_shards c)) (pc_mask c).
Definition at_shard c (j : nat) (m : scmd P) : T pcache (pcache * out) :=
  match pc_shards c !! j with
  | None => tlift (Fail Panic)
  | Some x =>
      let t := ps_exec x m in
      ((λ '(q, x), (q, pc_with c j x)) <$> t.1, let! (x, o) := t.2 in Ok (pc_with c j x, o))
  end.
(* sync.rs:229-235, 309-316, 337-341: each shard in turn *)
Fixpoint at_shards c (js : list nat) (m : scmd P) : T pcache pcache :=
  match js with
  | [] => tret c
  | j :: js => let? (c, _) := at_shard c j m in at_shards c js m
  end.
Definition key_of_call (m : scmd P) : option K :=
  match m with SKey k _ | SValueOrGuard _ k _ | SGetOrInsert _ k _ => Some k | SAll _ => None end.
Definition p_exec c (m : scmd P) : T pcache (pcache * out) :=
  match key_of_call m with
  | Some k => at_shard c (shard_idx (pc_mask c) k) m
  | None => let? c := at_shards c (seq 0 (length (pc_shards c))) m in tret (c, plain RUnit)
  end.
(* sync.rs:169-183, 195-205: len, weight, capacity, misses, hits lock every shard for reading. A sum
   that overflows before a poisoned shard is reached is a panic too. *)
Definition p_observe {A} c (f : scache P → res A) : res A :=
  if existsb ps_poisoned (pc_shards c) then Fail Panic
  else f (SCache (ps_shard <$> pc_shards c) (pc_mask c)).

(* sync.rs:164-166 is_empty: stops at the first shard that is not empty *)
Fixpoint empty_from (l : list pshard) : res bool :=
  match l with
  | [] => Ok true
  | x :: l => if ps_poisoned x then Fail Panic else if (sh_len (ps_shard x) =? 0)%N then empty_from l else Ok false
  end.
Definition p_is_empty c : res bool := empty_from (pc_shards c).

(* the call m panicked in user code, at point q, and left the cache c' *)
Definition p_panicked c (m : scmd P) (q : spoint) c' : Prop := (q, c') ∈ (p_exec c m).1.
End synccrash.
Arguments pshard : clear implicits. Arguments pcache : clear implicits.
