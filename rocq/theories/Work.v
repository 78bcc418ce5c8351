(* The work of evictions. Making room is a walk over the cached items (the hot and the cold hand,
   shard.rs:616-723); each item it looks at costs calls of user code. Crash.v records every call of
   user code of an API call, so the work can be counted there. *)
From Verif Require Export Crash.

Section work.
Context {P : Params} {B : Build}.
Notation shard := (shard P).
Notation "'let*' x := m 'in' k" := (mbind m (λ x, k))
  (at level 200, x pattern, m at level 100, k at level 200, right associativity).
Notation done a := (lift (Ok a)).

(* unsync.rs:437-475 Guard, where nothing panics: c_use_guard without the clean-up of a panic *)
Definition w_use_guard (s : shard) rs (p : plh) (g : guard_use P) : M (P:=P) (shard * out P) :=
  match g with
  | GInsert v wl => let* (s, l) := c_fill s rs p v in end_request s wl (s, finished rs l wl RGuard false)
  | GDrop => let* s := lift (remove_placeholder s p) in done (s, plain RGuard)
  | GForget => done (s, plain RGuard)
  end.
(* unsync.rs:295-313 get_ref_or_guard *)
Definition w_u_ref_or_guard (s : shard) rs k (g : guard_use P) : M (P:=P) (shard * out P) :=
  let* _ := pt PHash s in
  let* (s, r) := c_upsert_placeholder s (hash P k) k in
  match r with
  | inl (_, v) => done (s, plain (RVal (Some v)))
  | inr (p, _) => w_use_guard s rs p g
  end.
(* unsync.rs:318-334 get_mut_or_guard *)
Definition w_u_mut_or_guard (s : shard) rs k f (g : guard_use P) : M (P:=P) (shard * out P) :=
  let* _ := pt PHash s in
  let* (s, r) := c_upsert_placeholder s (hash P k) k in
  match r with
  | inl (idx, _) =>
      let* o := c_peek_token_mut s idx in
      let* (s, seen) := c_use_refmut s o f in done (s, plain (RVal seen))
  | inr (p, _) => w_use_guard s rs p g
  end.
(* one API call in which no user code panics, and the calls of user code it makes *)
Definition w_exec (s : shard) (m : cmd P) : M (P:=P) (shard * out P) :=
  match m with
  | CRefOrGuard rs k g => w_u_ref_or_guard s rs k g
  | CMutOrGuard rs k f g => w_u_mut_or_guard s rs k f g
  | _ => c_exec s m
  end.

(* ---- counting ---- *)
(* An eviction looks at an item: the hot hand asks whether it is pinned (shard.rs:689), the cold
   hand asks the same (shard.rs:643) or promotes it (shard.rs:629-641). *)
Definition looks (p : point) : bool := match p with PPinned | PPromote => true | _ => false end.
(* calls of user code on behalf of an item an eviction looks at *)
Definition handles (p : point) : bool :=
  match p with
  | PPinned | PPromote | PWeigh | PBefore | PReweigh | PEvHash | PColdEvict | PHotEvict => true
  | _ => false
  end.
Definition count (f : point → bool) (tr : list (point * shard)) : N :=
  foldr (λ x n, if f x.1 then n + 1 else n)%N 0%N tr.
(* in one call, and in the calls h, up to one that fails *)
Definition call_effort (f : point → bool) (s : shard) (m : cmd P) : N := count f (w_exec s m).1.
Fixpoint effort (f : point → bool) (s : shard) (h : list (cmd P)) : N :=
  match h with
  | [] => 0
  | m :: h => call_effort f s m + match exec s m with Ok (s', _) => effort f s' h | Fail _ => 0 end
  end.
End work.
