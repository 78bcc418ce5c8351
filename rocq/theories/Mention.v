(* The keys a call offers to the cache. *)
From Verif Require Export PropSpec SyncSpec.

Section mention.
Context {P : Params}.

(* [offers c k]: the call c, made with key k, may store a value or start a load under k. Reads,
   removals, retain and reserve do not. *)
Definition offers (c : cmd P) (k : K P) : Prop :=
  match c with
  | CReplace _ k' _ _ _ | CInsert _ k' _ _ | CGetOrInsert _ k' _ | CGetMutOrInsert _ k' _ _
  | CRefOrGuard _ k' _ | CMutOrGuard _ k' _ _ => k = k'
  | CContains _ | CGet _ | CPeek _ | CGetMut _ _ | CPeekMut _ _ | CRemove _
  | CRetain _ | CClear | CDrain | CReserve => False
  end.
(* the calls that empty the cache *)
Definition empties (c : cmd P) : Prop :=
  match c with CClear | CDrain => True | _ => False end.
(* the same for the sync cache *)
Definition s_offers (m : scmd P) (k : K P) : Prop :=
  match m with
  | SKey _ m | SAll m => offers m k
  | SValueOrGuard _ k' _ | SGetOrInsert _ k' _ => k = k'
  end.
End mention.
