(* Specification for C49 and C61: the keys that a history may store or remove, and hashers under
   which no two of them collide. *)
From Verif Require Export Policy.

Section policykeys.
Context {P : Params}.
(* the key of a call that may store or remove a value; reads are left out *)
Definition names (c : cmd P) : option (K P) :=
  match c with
  | CRemove k | CReplace _ k _ _ _ | CInsert _ k _ _
  | CGetOrInsert _ k _ | CGetMutOrInsert _ k _ _ | CRefOrGuard _ k _ | CMutOrGuard _ k _ _ => Some k
  | CContains _ | CGet _ | CPeek _ | CGetMut _ _ | CPeekMut _ _ | CRetain _ | CClear | CDrain | CReserve => None
  end.
End policykeys.
(* different keys of the list have different hashes *)
Definition no_collisions (P : Params) (ks : list (K P)) : Prop :=
  ∀ k k', k ∈ ks → k' ∈ ks → hash P k = hash P k' → keqb P k k' = true.
