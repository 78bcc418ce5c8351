(* Model of the ways in which a caller of the unsync cache can fail to finish with what a call
   returned: a RefMut that is forgotten (mem::forget), and a draining iterator that is dropped or
   forgotten before its end. A forgotten Guard is in Unsync.v. *)
From Verif Require Export Unsync.

Section leak.
Context {P : Params} {B : Build}.
Notation K := (K P). Notation V := (V P). Notation RS := (RS P).
Notation shard := (shard P). Notation out := (out P).
Implicit Types (s : shard) (k : K) (v : V) (rs : RS).

(* unsync.rs:477-495: what the owner of a RefMut sees, then writes through DerefMut, as in
   [use_refmut]; the Drop of shard.rs:1109-1121 does not run. *)
Definition leak_refmut s (o : option (nat * N)) (f : V → V) : res (shard * option V) :=
  let seen := refmut_seen s o in
  match o with
  | None => Ok (s, seen)
  | Some (t, w) => let! s := refmut_write s t f in Ok (s, seen)
  end.

Inductive lcmd :=
  | LGetMut k (f : V → V) | LPeekMut k (f : V → V)
  | LGetMutOrInsert rs k (w : option V) (f : V → V)
  | LMutOrGuard rs k (f : V → V) (g : guard_use P)
  | LDrain (n : nat).     (* drain(), of which n items are taken *)
Definition l_exec s (m : lcmd) : res (shard * out) :=
  match m with
  | LGetMut k f => (* unsync.rs:163-168 *)
      let! (s, o) := sh_get_mut s (hash P k) k in
      let! (s, o) := leak_refmut s o f in Ok (s, plain (RVal o))
  | LPeekMut k f => (* unsync.rs:181-186 *)
      let! o := sh_peek_mut s (hash P k) k in
      let! (s, o) := leak_refmut s o f in Ok (s, plain (RVal o))
  | LGetMutOrInsert rs k w f => (* unsync.rs:270-290 *)
      let! (s, r) := upsert_placeholder s (hash P k) k in
      match r with
      | inl (idx, _) =>
          let! (s, seen) := leak_refmut s (peek_token_mut s idx) f in Ok (s, plain (RVal seen))
      | inr (p, _) =>
          match w with
          | None => Ok (s, Out RErr [] true None)
          | Some v =>
              let! (s, o) := u_fill s rs p v false RUnit true in
              let! (s, seen) := leak_refmut s (peek_token_mut s (ph_idx p)) f in
              Ok (s, Out (RVal seen) (o_log o) true None)
          end
      end
  | LMutOrGuard rs k f g => (* unsync.rs:318-334 *)
      let! (s, r) := upsert_placeholder s (hash P k) k in
      match r with
      | inl (idx, _) =>
          let! (s, seen) := leak_refmut s (peek_token_mut s idx) f in Ok (s, plain (RVal seen))
      | inr (p, _) => use_guard s rs p g
      end
  | LDrain n => (* shard.rs:388-402, linked_slab.rs:209-215: the vector is emptied by Vec::drain when the iterator
       is made (its length is set to 0), whether the iterator is then consumed, dropped or forgotten *)
      let '(s, l) := sh_drain s in Ok (s, plain (RItems (take n l)))
  end.


(* a history of calls of both kinds *)
Fixpoint l_run s (h : list (cmd P + lcmd)) : res (shard * list out) :=
  match h with
  | [] => Ok (s, [])
  | m :: h =>
      let! (s, o) := match m with inl m => exec s m | inr m => l_exec s m end in
      let! (s, os) := l_run s h in
      Ok (s, o :: os)
  end.
End leak.
Arguments lcmd : clear implicits.
