(* The vocabulary of the theorems about forgotten references. *)
From Verif Require Export PropSpec Leak.

Section leakspec.
Context {P : Params}.
(* the change made through a reference that is forgotten *)
Definition l_change (m : lcmd P) : option (V P → V P) :=
  match m with
  | LGetMut _ f | LPeekMut _ f | LGetMutOrInsert _ _ _ f | LMutOrGuard _ _ f _ => Some f
  | LDrain _ => None
  end.
(* the same call, finished properly *)
Definition l_kept (m : lcmd P) : cmd P :=
  match m with
  | LGetMut k f => CGetMut k f
  | LPeekMut k f => CPeekMut k f
  | LGetMutOrInsert rs k w f => CGetMutOrInsert rs k w f
  | LMutOrGuard rs k f g => CMutOrGuard rs k f g
  | LDrain _ => CDrain
  end.
End leakspec.
