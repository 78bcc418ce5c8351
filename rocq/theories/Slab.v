(* Model of /repo/src/linked_slab.rs: LinkedSlab<T>.
   Simplification: a Token (NonZeroU32, linked_slab.rs:1) is modelled by [get() - 1], the
   index the code always uses to access [entries]; so token [t] here is token [t+1] there. *)
From Verif Require Export Base.

(* linked_slab.rs:3-12 struct Entry<T> *)
Record snode (T : Type) := SNode { item : option T; nxt : nat; prv : nat }.
Arguments SNode {T}. Arguments item {T}. Arguments nxt {T}. Arguments prv {T}.

(* linked_slab.rs:15-19 struct LinkedSlab<T> *)
Record slab (T : Type) := Slab { ents : list (snode T); next_free : nat }.
Arguments Slab {T}. Arguments ents {T}. Arguments next_free {T}.

Section slab.
Context {T : Type} {B : Build}.
Implicit Types (s : slab T) (e : snode T) (x : T).

(* field updates of one entry *)
Definition set_item e (i : option T) : snode T := SNode i (nxt e) (prv e).
Definition set_links e (p n : nat) : snode T := SNode (item e) n p.

(* self.entries[i] = e *)
Definition upd s (i : nat) e : slab T := Slab (<[i := e]> (ents s)) (next_free s).
(* &self.entries[i], panics when out of bounds *)
Definition at_ s (i : nat) : res (snode T) := unwrap (ents s !! i).
Definition is_live e : bool := match item e with Some _ => true | None => false end.

(* linked_slab.rs:22-27 with_capacity; the Vec capacity is not modelled *)
Definition slab_new : slab T := Slab [] 0.

(* linked_slab.rs:63-83 insert.
   [token.get().wrapping_add(1)] is 0 iff token.get() = u32::MAX, i.e. idx = u32::MAX - 1 *)
Definition slab_insert s x : res (slab T * nat) :=
  let token := next_free s in
  match ents s !! token with
  | Some e =>
      let! _ := assert (negb (is_live e)) in
      Ok (Slab (<[token := SNode (Some x) token token]> (ents s)) (nxt e), token)
  | None =>
      let! _ := assert (bool_decide (token = length (ents s))) in
      if (N.of_nat token + 2 =? two32)%N then Fail SlabFull
      else Ok (Slab (ents s ++ [SNode (Some x) token token]) (S token), token)
  end.

(* linked_slab.rs:87-94 get *)
Definition slab_get s (i : nat) : option (T * nat) :=
  match ents s !! i with
  | Some e => match item e with Some v => Some (v, nxt e) | None => None end
  | None => None
  end.

(* Writing through the &mut T returned by get_mut (linked_slab.rs:98-105): the caller has
   already obtained the reference, so the slot exists. *)
Definition slab_set s (i : nat) (x : T) : slab T :=
  match ents s !! i with
  | Some e => upd s i (set_item e (Some x))
  | None => s
  end.

(* linked_slab.rs:129-158 link *)
Definition slab_link s (idx : nat) (target_head : option nat) : res (slab T * nat) :=
  let! (s1, prev, next) :=
    match target_head with
    | Some th =>
        let! head := at_ s th in
        let! _ := assert (is_live head) in
        if bool_decide (prv head = th) then
          Ok (upd s th (set_links head idx idx), th, th)
        else
          let bh := prv head in
          let s' := upd s th (set_links head idx (nxt head)) in
          let! before_head := at_ s' bh in
          let! _ := assert (is_live before_head) in
          let! _ := assert (bool_decide (nxt before_head = th)) in
          Ok (upd s' bh (set_links before_head (prv before_head) idx), bh, th)
    | None => Ok (s, idx, idx)
    end in
  let! entry := at_ s1 idx in
  let! _ := assert (is_live entry) in
  let! _ := assert (bool_decide (nxt entry = idx)) in
  let! _ := assert (bool_decide (prv entry = idx)) in
  Ok (upd s1 idx (set_links entry prev next), next).

(* linked_slab.rs:166-187 unlink *)
Definition slab_unlink s (idx : nat) : res (slab T * option nat) :=
  let! entry := at_ s idx in
  let! _ := assert (is_live entry) in
  let prev_idx := prv entry in
  let next_idx := nxt entry in
  if bool_decide (next_idx = idx) then
    let! _ := assert (bool_decide (prev_idx = idx)) in
    Ok (s, None)
  else
    let s1 := upd s idx (set_links entry idx idx) in
    let! next := at_ s1 next_idx in
    let! _ := assert (is_live next) in
    let! _ := assert (bool_decide (prv next = idx)) in
    let s2 := upd s1 next_idx (set_links next prev_idx (nxt next)) in
    let! prev := at_ s2 prev_idx in
    let! _ := assert (is_live prev) in
    let! _ := assert (bool_decide (nxt prev = idx)) in
    Ok (upd s2 prev_idx (set_links prev (prv prev) next_idx), Some next_idx).

(* linked_slab.rs:194-202 remove *)
Definition slab_remove s (idx : nat) : res (slab T * option (T * option nat)) :=
  let! (s1, next) := slab_unlink s idx in
  let! entry := at_ s1 idx in
  match item entry with
  | None => Ok (s1, None)
  | Some old =>
      Ok (Slab (<[idx := SNode None (next_free s1) (prv entry)]> (ents s1)) idx,
          Some (old, next))
  end.

(* linked_slab.rs:218-220 iter *)
Definition slab_iter s : list T := omap item (ents s).

(* linked_slab.rs:212-215 drain: emptied immediately; the iterator yields the items *)
Definition slab_drain s : slab T * list T := (Slab [] 0, slab_iter s).

End slab.
