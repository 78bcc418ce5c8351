(* Model of calls with a borrowed form of the key. Every call that takes a &Q with
   Q: Equivalent<Key> + Hash hashes the form and compares it with the keys it meets; the calls that
   load also make a key of it (ToOwned). These are the functions of Shard.v, Unsync.v and Sync.v once
   more, with the hash [h] and the comparison [e] of the form in place of the key. *)
From Verif Require Export Sync.

(* A kind of borrowed keys. [own] is used by the calls that load only. *)
Record Form (P : Params) := {
  form : Type;
  fhash : form → N;              (* Hash for Q: BuildHasher::hash_one, shard.rs:411-425 *)
  feqb : form → K P → bool;      (* Equivalent<Key> for Q *)
  own : form → K P;              (* ToOwned for Q *)
}.
Arguments form {P} _. Arguments fhash {P} _ _. Arguments feqb {P} _ _ _. Arguments own {P} _ _.

Section borrow.
Context {P : Params} {B : Build} (F : Form P).
Notation K := (K P). Notation V := (V P). Notation RS := (RS P).
Notation shard := (shard P). Notation scache := (scache P). Notation out := (out P).
Implicit Types (s : shard) (c : scache) (k : K) (v : V) (rs : RS) (p : plh) (q : form F) (e : K → bool).

(* shard.rs:427-450 search *)
Fixpoint b_search_loop s (h : N) e (l : list nat) (hash_match : option nat) : res (option nat) :=
  match l with
  | [] => Ok hash_match
  | idx :: l' =>
      let! x := entry_at s idx in
      match x with
      | Resident r => if e (r_key r) then Ok (Some idx) else b_search_loop s h e l' hash_match
      | Placeholder p => if e (p_key p) then Ok (Some idx) else b_search_loop s h e l' hash_match
      | Ghost g => b_search_loop s h e l' (if (g =? h)%N then Some idx else hash_match)
      end
  end.
Definition b_search s (h : N) e : res (option nat) := b_search_loop s h e (probe P (sh_map s) h) None.
(* shard.rs:452-474 search_resident *)
Definition b_match s e (i : nat) : res bool :=
  let! x := entry_at s i in
  match x with Resident r => Ok (e (r_key r)) | _ => Ok false end.
Definition b_search_resident s (h : N) e : res (option (nat * resident P)) :=
  let! o := tfind P (sh_map s) h (b_match s e) in
  match o with
  | None => Ok None
  | Some i =>
      let! x := entry_at s i in
      match x with Resident r => Ok (Some (i, r)) | _ => Fail UB end
  end.
(* shard.rs:476-486 contains *)
Definition b_contains s (h : N) e : res bool :=
  let! o := tfind P (sh_map s) h (b_match s e) in Ok (bool_decide (is_Some o)).
(* shard.rs:488-506 get *)
Definition b_get s (h : N) e : res (shard * option V) :=
  let! o := b_search_resident s h e in
  match o with
  | Some (i, r) =>
      let r' := if (r_ref r <? MAX_F)%N then set_key_ref r (r_ref r + 1) else r in
      Ok (record_hit (set_entry s i (Resident r')), Some (r_val r))
  | None => Ok (record_miss s, None)
  end.
(* shard.rs:508-530 get_mut *)
Definition b_get_mut s (h : N) e : res (shard * option (nat * N)) :=
  let! o := b_search_resident s h e in
  match o with
  | None => Ok (record_miss s, None)
  | Some (idx, _) =>
      let! x := entry_at s idx in
      match x with
      | Resident r =>
          let r' := if (r_ref r <? MAX_F)%N then set_key_ref r (r_ref r + 1) else r in
          Ok (record_hit (set_entry s idx (Resident r')), Some (idx, rweight r))
      | _ => Fail Panic
      end
  end.
(* shard.rs:555-561 peek, 563-569 peek_mut *)
Definition b_peek s (h : N) e : res (option V) :=
  let! o := b_search_resident s h e in
  Ok (match o with Some (_, r) => Some (r_val r) | None => None end).
Definition b_peek_mut s (h : N) e : res (option (nat * N)) :=
  let! o := b_search_resident s h e in
  Ok (match o with Some (i, _) => peek_token_mut s i | None => None end).
(* shard.rs:571-579 remove *)
Definition b_remove s (h : N) e : res (shard * option (K * V)) :=
  let! o := b_search s h e in
  match o with
  | None => Ok (s, None)
  | Some idx => remove_internal s h idx
  end.
(* shard.rs:1012-1067 upsert_placeholder; k is key.to_owned() *)
Definition b_upsert_placeholder s (h : N) e k : res (shard * ((nat * V) + (plh * bool))) :=
  let! o := b_search s h e in
  match o with
  | Some idx =>
      let! x := entry_at s idx in
      match x with
      | Resident r =>
          let r' := if (r_ref r <? MAX_F)%N then set_key_ref r (r_ref r + 1) else r in
          Ok (record_hit (set_entry s idx (Resident r')), inl (idx, r_val r))
      | Placeholder p => Ok (record_hit s, inr (p_shared p, false))
      | Ghost _ =>
          let shared := Plh h idx (sh_nph s) in
          let s := set_nph s (sh_nph s + 1) in
          let s := set_entry s idx (Placeholder (Pla k Hot shared)) in
          let! s := dec_nnr s in
          let! (es, next) := slab_unlink (sh_ents s) idx in
          let s := set_ents s es in
          let s := if bool_decide (sh_ghost_head s = Some idx) then set_ghost_head s next else s in
          Ok (record_miss s, inr (shared, true))
      end
  | None =>
      let idx := next_free (sh_ents s) in
      let shared := Plh h idx (sh_nph s) in
      let s := set_nph s (sh_nph s + 1) in
      let! (es, idx_) := slab_insert (sh_ents s) (Placeholder (Pla k Cold shared)) in
      let! _ := assert (bool_decide (idx = idx_)) in
      let! s := map_insert (set_ents s es) h idx in
      Ok (record_miss s, inr (shared, true))
  end.

(* ---- the unsync cache ---- *)
(* the calls that take a borrowed key, unsync.rs:145-334 *)
Inductive bcmd :=
  | BContains q | BGet q | BPeek q | BGetMut q (f : V → V) | BPeekMut q (f : V → V) | BRemove q
  | BGetOrInsert rs q (w : option V)
  | BGetMutOrInsert rs q (w : option V) (f : V → V)
  | BRefOrGuard rs q (g : guard_use P)
  | BMutOrGuard rs q (f : V → V) (g : guard_use P).
Definition b_upsert s q := b_upsert_placeholder s (fhash F q) (feqb F q) (own F q).
Definition b_exec s (m : bcmd) : res (shard * out) :=
  match m with
  | BContains q => let! b := b_contains s (fhash F q) (feqb F q) in Ok (s, plain (RBool b))
  | BGet q => let! (s, o) := b_get s (fhash F q) (feqb F q) in Ok (s, plain (RVal o))
  | BPeek q => let! o := b_peek s (fhash F q) (feqb F q) in Ok (s, plain (RVal o))
  | BGetMut q f =>
      let! (s, o) := b_get_mut s (fhash F q) (feqb F q) in
      let! (s, o) := use_refmut s o f in Ok (s, plain (RVal o))
  | BPeekMut q f =>
      let! o := b_peek_mut s (fhash F q) (feqb F q) in
      let! (s, o) := use_refmut s o f in Ok (s, plain (RVal o))
  | BRemove q => let! (s, o) := b_remove s (fhash F q) (feqb F q) in Ok (s, plain (RPair o))
  | BGetOrInsert rs q w => (* unsync.rs:244-264 *)
      let! (s, r) := b_upsert s q in
      match r with
      | inl (idx, _) => Ok (s, plain (RVal (peek_token s idx)))
      | inr (p, _) =>
          match w with
          | None => Ok (s, Out RErr [] true None)
          | Some v =>
              let! (s, o) := u_fill s rs p v false RUnit true in
              Ok (s, Out (RVal (peek_token s (ph_idx p))) (o_log o) true None)
          end
      end
  | BGetMutOrInsert rs q w f => (* unsync.rs:270-290 *)
      let! (s, r) := b_upsert s q in
      match r with
      | inl (idx, _) => let! (s, seen) := use_refmut s (peek_token_mut s idx) f in Ok (s, plain (RVal seen))
      | inr (p, _) =>
          match w with
          | None => Ok (s, Out RErr [] true None)
          | Some v =>
              let! (s, o) := u_fill s rs p v false RUnit true in
              let! (s, seen) := use_refmut s (peek_token_mut s (ph_idx p)) f in
              Ok (s, Out (RVal seen) (o_log o) true None)
          end
      end
  | BRefOrGuard rs q g => (* unsync.rs:295-313 *)
      let! (s, r) := b_upsert s q in
      match r with
      | inl (_, v) => Ok (s, plain (RVal (Some v)))
      | inr (p, _) => use_guard s rs p g
      end
  | BMutOrGuard rs q f g => (* unsync.rs:318-334 *)
      let! (s, r) := b_upsert s q in
      match r with
      | inl (idx, _) => let! (s, seen) := use_refmut s (peek_token_mut s idx) f in Ok (s, plain (RVal seen))
      | inr (p, _) => use_guard s rs p g
      end
  end.

(* ---- the sync cache, used by one thread at a time ---- *)
Inductive bscmd :=
  | BSContains q | BSGet q | BSPeek q | BSRemove q
  | BSValueOrGuard rs q (g : sguard P)
  | BSGetOrInsert rs q (w : option V).
(* sync.rs:208-225: shard_for(key) *)
Definition b_shard_for c q : option nat :=
  let j := N.to_nat (N.land (rotate32 (fhash F q)) (sc_mask c)) in
  if decide (j < length (sc_shards c)) then Some j else None.
Definition b_on {A} c q (f : shard → res (shard * A)) : res (scache * A) :=
  let! j := unwrap (b_shard_for c q) in
  let! s := unwrap (sc_shards c !! j) in
  let! (s, a) := f s in
  Ok (with_shard c j s, a).
(* sync.rs:352-365 get_value_or_guard, sync_placeholder.rs:201-239 join *)
Definition b_value_or_guard c q : res (scache * (V + plh)) :=
  let! (c, o) := b_on c q (λ s, b_get s (fhash F q) (feqb F q)) in
  match o with
  | Some v => Ok (c, inl v)
  | None =>
      let! (c, r) := b_on c q (λ s, b_upsert s q) in
      match r with
      | inl (_, v) => Ok (c, inl v)
      | inr (p, true) => Ok (c, inr p)
      | inr (p, false) => Fail NoFuel
      end
  end.
(* sync_placeholder.rs:288-323 insert, 327-346 drop, with nobody waiting *)
Definition b_use_guard c q rs p (g : sguard P) : res (scache * out) :=
  match g with
  | SInsert v wl =>
      let! (c, r) := b_on c q (λ s, xexec s (XFill rs p false v wl)) in
      match r with XO o => Ok (c, o) | _ => Fail Panic end
  | SDrop => let! (c, _) := b_on c q (λ s, xexec s (XDrop p)) in Ok (c, plain RGuard)
  end.
Definition b_sc_exec c (m : bscmd) : res (scache * out) :=
  match m with
  | BSContains q => b_on c q (λ s, b_exec s (BContains q))   (* sync.rs:238-244 *)
  | BSGet q => b_on c q (λ s, b_exec s (BGet q))             (* sync.rs:247-254 *)
  | BSPeek q => b_on c q (λ s, b_exec s (BPeek q))           (* sync.rs:257-264 *)
  | BSRemove q => b_on c q (λ s, b_exec s (BRemove q))       (* sync.rs:267-273 *)
  | BSValueOrGuard rs q g =>
      let! (c, r) := b_value_or_guard c q in
      match r with
      | inl v => Ok (c, plain (RVal (Some v)))
      | inr p => b_use_guard c q rs p g
      end
  | BSGetOrInsert rs q w => (* sync.rs:370-388 *)
      let! (c, r) := b_value_or_guard c q in
      match r, w with
      | inl v, _ => Ok (c, plain (RVal (Some v)))
      | inr p, None => let! (c, _) := b_use_guard c q rs p SDrop in Ok (c, Out RErr [] true None)
      | inr p, Some v =>
          let! (c, o) := b_use_guard c q rs p (SInsert v false) in
          Ok (c, Out (RVal (Some v)) (o_log o) true None)
      end
  end.
End borrow.
