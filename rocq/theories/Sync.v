(* Model of /repo/src/sync.rs: Cache, used by one thread at a time. What one critical section
   of a shard lock does (xexec) is also the building block of the concurrent model in Conc.v. *)
From Verif Require Export Unsync Options.

Section sync.
Context {P : Params} {B : Build}.
Notation K := (K P). Notation V := (V P). Notation RS := (RS P).
Notation shard := (shard P). Notation scache := (scache P). Notation out := (out P).
Implicit Types (s : shard) (c : scache) (k : K) (v : V) (rs : RS) (p : plh).

(* One critical section of a shard lock.
   - [XCmd m]: contains, get, peek, remove, replace, insert, retain, clear, reserve; replace and
     insert open their lifecycle request before, and close it after the section: the log of the
     call is complete in its [out];
   - [XJoin k]: sync_placeholder.rs:211-218 and 451-471, upsert_placeholder;
   - [XFill]: sync_placeholder.rs:317-321, replace_placeholder by a guard;
   - [XDrop]: sync_placeholder.rs:336, remove_placeholder by a guard. *)
Inductive sect :=
  | XCmd (m : cmd P)
  | XJoin k
  | XFill rs p (referenced : bool) v (wl : bool)
  | XDrop p.
(* [XStale v]: insert returned Err(v); its request state is dropped without end_request. *)
Inductive xret :=
  | XO (o : out) | XHit v | XWait p | XNew p | XStale v | XGone.
Definition xexec s (x : sect) : res (shard * xret) :=
  match x with
  | XCmd m => let! (s, o) := exec s m in Ok (s, XO o)
  | XJoin k =>
      let! (s, r) := upsert_placeholder s (hash P k) k in
      Ok (s, match r with
             | inl (_, v) => XHit v
             | inr (p, true) => XNew p
             | inr (p, false) => XWait p
             end)
  | XFill rs p ref v wl =>
      let! (s, l, o) := replace_placeholder s (Lcs rs []) p ref v in
      Ok (s, match o with None => XO (finished rs l wl RGuard false) | Some v => XStale v end)
  | XDrop p => let! s := remove_placeholder s p in Ok (s, XGone)
  end.

(* the calls on one shard that are one critical section of the sync cache *)
Definition sync_cmd (m : cmd P) : bool :=
  match m with
  | CContains _ | CGet _ | CPeek _ | CRemove _ | CReplace _ _ _ _ _ | CInsert _ _ _ _
  | CRetain _ | CClear | CReserve => true
  | _ => false
  end.
(* does it take the shard lock for reading? sync.rs:238-264 *)
Definition reads (m : cmd P) : bool :=
  match m with CContains _ | CGet _ | CPeek _ => true | _ => false end.

(* ---- the cache used by one thread ---- *)
Definition with_shard c (j : nat) s : scache := SCache (<[j := s]> (sc_shards c)) (sc_mask c).
(* lock the j-th shard and run a critical section *)
Definition on_shard c (j : nat) (x : sect) : res (scache * xret) :=
  let! s := unwrap (sc_shards c !! j) in
  let! (s, r) := xexec s x in
  Ok (with_shard c j s, r).
(* sync.rs:208-225: shard_for(key). Its None case is an unwrap of None for the calls that write
   and a plain miss for the calls that read; it is a panic for all of them here, and shown
   unreachable. *)
Definition on_key c k (x : sect) : res (scache * xret) :=
  let! j := unwrap (shard_for c k) in on_shard c j x.
(* sync.rs:229-235 reserve, 309-316 retain, 337-341 clear: each shard in turn *)
Fixpoint on_shards c (js : list nat) (x : sect) : res scache :=
  match js with
  | [] => Ok c
  | j :: js => let! (c, _) := on_shard c j x in on_shards c js x
  end.
Definition on_all c (x : sect) : res scache := on_shards c (seq 0 (length (sc_shards c))) x.

(* What the caller of get_value_or_guard does with the guard before the next call: insert a
   value, or drop it. *)
Inductive sguard := SInsert v (wl : bool) | SDrop.
(* sync_placeholder.rs:288-323 insert, 327-346 drop, with nobody waiting *)
Definition s_use_guard c k rs p (g : sguard) : res (scache * out) :=
  match g with
  | SInsert v wl =>
      let! (c, r) := on_key c k (XFill rs p false v wl) in
      match r with XO o => Ok (c, o) | _ => Fail Panic end
  | SDrop => let! (c, _) := on_key c k (XDrop p) in Ok (c, plain RGuard)
  end.
(* The value got from a cached item or a guard. sync.rs:352-365 get_value_or_guard: a get, then
   join. When a load of the key is already pending the call does not return before the load is
   completed: with one thread, never. [NoFuel] stands for this. *)
Definition s_value_or_guard c k : res (scache * (V + plh)) :=
  let! (c, r) := on_key c k (XCmd (CGet k)) in
  match r with
  | XO (Out (RVal (Some v)) _ _ _) => Ok (c, inl v)
  | XO _ =>
      let! (c, r) := on_key c k (XJoin k) in
      match r with
      | XHit v => Ok (c, inl v)
      | XNew p => Ok (c, inr p)
      | _ => Fail NoFuel
      end
  | _ => Fail Panic
  end.

(* One API call. get_value_or_guard_async and get_or_insert_async run the same code when nobody
   else uses the cache. *)
Inductive scmd :=
  | SKey k (m : cmd P)                          (* a plain call on the key k *)
  | SAll (m : cmd P)                            (* retain, clear, reserve *)
  | SValueOrGuard rs k (g : sguard)             (* get_value_or_guard, then use the guard *)
  | SGetOrInsert rs k (w : option V).           (* sync.rs:370-388; w is the closure's result *)
(* the key of a plain call *)
Definition key_of (m : cmd P) : option K :=
  match m with
  | CContains k | CGet k | CPeek k | CRemove k | CReplace _ k _ _ _ | CInsert _ k _ _ => Some k
  | _ => None
  end.
Definition sc_exec c (m : scmd) : res (scache * out) :=
  match m with
  | SKey k m =>
      let! (c, r) := on_key c k (XCmd m) in
      match r with XO o => Ok (c, o) | _ => Fail Panic end
  | SAll m => let! c := on_all c (XCmd m) in Ok (c, plain RUnit)
  | SValueOrGuard rs k g =>
      let! (c, r) := s_value_or_guard c k in
      match r with
      | inl v => Ok (c, plain (RVal (Some v)))
      | inr p => s_use_guard c k rs p g
      end
  | SGetOrInsert rs k w =>
      let! (c, r) := s_value_or_guard c k in
      match r, w with
      | inl v, _ => Ok (c, plain (RVal (Some v)))
      | inr p, None =>
          let! (c, _) := s_use_guard c k rs p SDrop in Ok (c, Out RErr [] true None)
      | inr p, Some v =>
          let! (c, o) := s_use_guard c k rs p (SInsert v false) in
          Ok (c, Out (RVal (Some v)) (o_log o) true None)
      end
  end.
Fixpoint sc_run c (h : list scmd) : res (scache * list out) :=
  match h with
  | [] => Ok (c, [])
  | m :: h =>
      let! (c, o) := sc_exec c m in
      let! (c, os) := sc_run c h in
      Ok (c, o :: os)
  end.
(* the calls of the API: the key of a plain call is the one its shard is chosen by *)
Definition api (m : scmd) : Prop :=
  match m with
  | SKey k m => sync_cmd m = true ∧ key_of m = Some k
  | SAll m => m = CClear ∨ m = CReserve ∨ ∃ f, m = CRetain f
  | _ => True
  end.

(* ---- observations: sync.rs:164-176 is_empty, len, weight; 195-205 misses, hits ---- *)
Definition sc_is_empty c : bool := forallb (λ s, (sh_len s =? 0)%N) (sc_shards c).
Definition sc_len c : res N := sum64 (sh_len <$> sc_shards c).
Fixpoint seq_res {A} (l : list (res A)) : res (list A) :=
  match l with [] => Ok [] | x :: l => let! a := x in let! l := seq_res l in Ok (a :: l) end.
Definition sc_weight c : res N := let! l := seq_res (sh_weight <$> sc_shards c) in sum64 l.
Definition sc_misses c : res N := sum64 (sh_misses <$> sc_shards c).
Definition sc_hits c : res N := sum64 (sh_hits <$> sc_shards c).
End sync.
Arguments sect : clear implicits. Arguments xret : clear implicits.
Arguments scmd : clear implicits. Arguments sguard : clear implicits.
