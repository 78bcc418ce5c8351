(* Model of /repo/src/unsync.rs: Cache, its Guard and its RefMut. *)
From Verif Require Export Shard.

Section unsync.
Context {P : Params} {B : Build}.
Notation K := (K P). Notation V := (V P). Notation RS := (RS P).
Notation shard := (shard P).
Implicit Types (s : shard) (k : K) (v : V) (rs : RS).

(* Calls of the Lifecycle trait made by one API call, oldest first. The RequestState returned
   by begin_request is chosen by the caller of the model: begin_request takes &self and may
   return anything. *)
Inductive lev := LBegin (rs : RS) | LHook (e : event P) | LEnd (rs : RS).

(* What an API call returns. RefMut and &Val results are modelled by the value they refer to. *)
Inductive ret :=
  | RUnit
  | RBool (b : bool)
  | RVal (o : option V)
  | RPair (o : option (K * V))      (* remove: the removed pair; replace: Err of the pair *)
  | RItems (l : list (K * V))
  | RGuard                          (* get_*_or_guard returned the guard *)
  | RErr.                           (* the closure of get_*or_insert_with failed *)
Record out := Out {
  o_ret : ret;
  o_log : list lev;                 (* lifecycle calls *)
  o_called : bool;                  (* was the closure called? *)
  o_state : option RS;              (* the RequestState handed to the caller by the _with_lifecycle methods *)
}.
Definition plain (r : ret) : out := Out r [] false None.

(* Result::is_ok *)
Definition is_none {A} (o : option A) : bool := match o with None => true | Some _ => false end.
Definition hooks (l : lcs P) : list lev := LHook <$> llog l.
(* lifecycle.end_request(lcs), or return of lcs to the caller when wl *)
Definition finished (rs : RS) (l : lcs P) (wl : bool) (r : ret) (called : bool) : out :=
  Out r (LBegin rs :: hooks l ++ (if wl then [] else [LEnd (lrs l)])) called
    (if wl then Some (lrs l) else None).

(* unsync.rs:145-150 contains_key *)
Definition u_contains s k : res bool := sh_contains s (hash P k) k.
(* unsync.rs:153-158 get *)
Definition u_get s k : res (shard * option V) := sh_get s (hash P k) k.
(* unsync.rs:171-176 peek *)
Definition u_peek s k : res (option V) := sh_peek s (hash P k) k.
(* unsync.rs:477-495: what the owner of a RefMut sees, then writes through DerefMut, then
   drops it. [f] is the caller's mutation of the value. *)
Definition refmut_seen s (o : option (nat * N)) : option V :=
  match o with Some (t, _) => peek_token s t | None => None end.
Definition use_refmut s (o : option (nat * N)) (f : V → V) : res (shard * option V) :=
  let seen := refmut_seen s o in
  match o with
  | None => Ok (s, seen)
  | Some (t, w) =>
      let! s := refmut_write s t f in
      let! s := refmut_drop s t w in
      Ok (s, seen)
  end.
(* unsync.rs:163-168 get_mut *)
Definition u_get_mut s k (f : V → V) : res (shard * option V) :=
  let! (s, o) := sh_get_mut s (hash P k) k in use_refmut s o f.
(* unsync.rs:181-186 peek_mut *)
Definition u_peek_mut s k (f : V → V) : res (shard * option V) :=
  let! o := sh_peek_mut s (hash P k) k in use_refmut s o f.
(* unsync.rs:190-195 remove *)
Definition u_remove s k : res (shard * option (K * V)) := sh_remove s (hash P k) k.

(* unsync.rs:202-206 replace (wl = false), 213-228 replace_with_lifecycle (wl = true). On Err
   the request state is dropped without end_request. *)
Definition u_replace s rs k v (soft wl : bool) : res (shard * out) :=
  let! (s, l, o) := sh_insert s (Lcs rs []) (hash P k) k v (Replace soft) in
  match o with
  | None => Ok (s, finished rs l wl (RPair None) false)
  | Some kv => Ok (s, Out (RPair (Some kv)) (LBegin rs :: hooks l) false None)
  end.

(* unsync.rs:337-340 insert (wl = false), 343-355 insert_with_lifecycle (wl = true) *)
Definition u_insert s rs k v (wl : bool) : res (shard * out) :=
  let! (s, l, o) := sh_insert s (Lcs rs []) (hash P k) k v Insert in
  let! _ := assert (is_none o) in
  Ok (s, finished rs l wl RUnit false).

(* unsync.rs:446-461 insert_internal of the Guard: replace_placeholder cannot fail *)
Definition u_fill s rs (p : plh) v (wl : bool) (r : ret) (called : bool) : res (shard * out) :=
  let! (s, l, o) := replace_placeholder s (Lcs rs []) p false v in
  let! _ := assert (is_none o) in
  Ok (s, finished rs l wl r called).

(* unsync.rs:244-264 get_or_insert_with; [w] is the result of the closure, None for Err *)
Definition u_get_or_insert s rs k (w : option V) : res (shard * out) :=
  let! (s, r) := upsert_placeholder s (hash P k) k in
  match r with
  | inl (idx, _) => Ok (s, plain (RVal (peek_token s idx)))
  | inr (p, _) =>
      match w with
      | None => Ok (s, Out RErr [] true None)
      | Some v =>
          let! (s, o) := u_fill s rs p v false RUnit true in
          Ok (s, Out (RVal (peek_token s (ph_idx p))) (o_log o) true None)
      end
  end.
(* unsync.rs:270-290 get_mut_or_insert_with, and the caller's use of the RefMut *)
Definition u_get_mut_or_insert s rs k (w : option V) (f : V → V) : res (shard * out) :=
  let! (s, r) := upsert_placeholder s (hash P k) k in
  match r with
  | inl (idx, _) =>
      let! (s, seen) := use_refmut s (peek_token_mut s idx) f in Ok (s, plain (RVal seen))
  | inr (p, _) =>
      match w with
      | None => Ok (s, Out RErr [] true None)
      | Some v =>
          let! (s, o) := u_fill s rs p v false RUnit true in
          let! (s, seen) := use_refmut s (peek_token_mut s (ph_idx p)) f in
          Ok (s, Out (RVal seen) (o_log o) true None)
      end
  end.

(* What the owner of a Guard does with it: Guard::insert / insert_with_lifecycle
   (unsync.rs:437-444), drop (unsync.rs:464-475), or mem::forget *)
Inductive guard_use := GInsert (v : V) (wl : bool) | GDrop | GForget.
Definition use_guard s rs (p : plh) (g : guard_use) : res (shard * out) :=
  match g with
  | GInsert v wl => u_fill s rs p v wl RGuard false
  | GDrop => let! s := remove_placeholder s p in Ok (s, plain RGuard)
  | GForget => Ok (s, plain RGuard)
  end.
(* unsync.rs:295-313 get_ref_or_guard *)
Definition u_ref_or_guard s rs k (g : guard_use) : res (shard * out) :=
  let! (s, r) := upsert_placeholder s (hash P k) k in
  match r with
  | inl (_, v) => Ok (s, plain (RVal (Some v)))
  | inr (p, _) => use_guard s rs p g
  end.
(* unsync.rs:318-334 get_mut_or_guard *)
Definition u_mut_or_guard s rs k (f : V → V) (g : guard_use) : res (shard * out) :=
  let! (s, r) := upsert_placeholder s (hash P k) k in
  match r with
  | inl (idx, _) =>
      let! (s, seen) := use_refmut s (peek_token_mut s idx) f in Ok (s, plain (RVal seen))
  | inr (p, _) => use_guard s rs p g
  end.

(* One API call. The read-only len, weight, is_empty, capacity, iter, hits and misses are
   observations of the state: sh_len, sh_weight, sh_capacity, sh_iter, sh_hits, sh_misses. *)
Inductive cmd :=
  | CContains k | CGet k | CPeek k
  | CGetMut k (f : V → V) | CPeekMut k (f : V → V)
  | CRemove k
  | CReplace rs k v (soft wl : bool)
  | CInsert rs k v (wl : bool)
  | CRetain (f : K → V → bool)
  | CClear | CDrain | CReserve
  | CGetOrInsert rs k (w : option V)
  | CGetMutOrInsert rs k (w : option V) (f : V → V)
  | CRefOrGuard rs k (g : guard_use)
  | CMutOrGuard rs k (f : V → V) (g : guard_use).

Definition exec s (c : cmd) : res (shard * out) :=
  match c with
  | CContains k => let! b := u_contains s k in Ok (s, plain (RBool b))
  | CGet k => let! (s, o) := u_get s k in Ok (s, plain (RVal o))
  | CPeek k => let! o := u_peek s k in Ok (s, plain (RVal o))
  | CGetMut k f => let! (s, o) := u_get_mut s k f in Ok (s, plain (RVal o))
  | CPeekMut k f => let! (s, o) := u_peek_mut s k f in Ok (s, plain (RVal o))
  | CRemove k => let! (s, o) := u_remove s k in Ok (s, plain (RPair o))
  | CReplace rs k v soft wl => u_replace s rs k v soft wl
  | CInsert rs k v wl => u_insert s rs k v wl
  | CRetain f => let! s := sh_retain s f in Ok (s, plain RUnit)   (* unsync.rs:233-238 *)
  | CClear => Ok (sh_clear s, plain RUnit)                        (* unsync.rs:358-360 *)
  | CDrain => let '(s, l) := sh_drain s in Ok (s, plain (RItems l)) (* unsync.rs:371-374 *)
  | CReserve => let! s := sh_reserve s in Ok (s, plain RUnit)     (* unsync.rs:140-142 *)
  | CGetOrInsert rs k w => u_get_or_insert s rs k w
  | CGetMutOrInsert rs k w f => u_get_mut_or_insert s rs k w f
  | CRefOrGuard rs k g => u_ref_or_guard s rs k g
  | CMutOrGuard rs k f g => u_mut_or_guard s rs k f g
  end.

(* a history of calls, and its results *)
Fixpoint run s (h : list cmd) : res (shard * list out) :=
  match h with
  | [] => Ok (s, [])
  | c :: h =>
      let! (s, o) := exec s c in
      let! (s, os) := run s h in
      Ok (s, o :: os)
  end.
End unsync.
Arguments cmd : clear implicits. Arguments out : clear implicits.
Arguments ret : clear implicits. Arguments lev : clear implicits. Arguments guard_use : clear implicits.
