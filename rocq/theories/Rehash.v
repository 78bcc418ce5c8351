(* Specification for C61: the same cache with another hasher and another hash table. Keys, values,
   request states, and everything else the user provides are the same; only the types of the model,
   which depend on all parameters, have to be told apart. *)
From Verif Require Export PolicyKeys PropSpec.

Definition rehashed (P : Params) (h : K P → N) (pr : table → N → list nat) (ti : table → list nat) (gr : table → bool) : Params := {|
  K := K P; V := V P; RS := RS P;
  keqb := keqb P;
  hash := h;
  weight := weight P;
  pinned := pinned P;
  before_evict := before_evict P;
  on_evict := on_evict P;
  probe := pr;
  titer := ti;
  grows := gr;
  ptr_ids := ptr_ids P;
|}.

Section rehash.
Context {P : Params} {h : K P → N} {pr : table → N → list nat} {ti : table → list nat} {gr : table → bool}.
Notation P' := (rehashed P h pr ti gr).

(* the same use of a guard, call, hook call, result *)
Definition re_guard (g : guard_use P) : guard_use P' :=
  match g with GInsert v wl => GInsert (P:=P') v wl | GDrop => GDrop | GForget => GForget end.
Definition re_cmd (m : cmd P) : cmd P' :=
  match m with
  | CContains k => CContains (P:=P') k | CGet k => CGet (P:=P') k | CPeek k => CPeek (P:=P') k
  | CGetMut k f => CGetMut (P:=P') k f | CPeekMut k f => CPeekMut (P:=P') k f
  | CRemove k => CRemove (P:=P') k
  | CReplace rs k v soft wl => CReplace (P:=P') rs k v soft wl
  | CInsert rs k v wl => CInsert (P:=P') rs k v wl
  | CRetain f => CRetain (P:=P') f
  | CClear => CClear | CDrain => CDrain | CReserve => CReserve
  | CGetOrInsert rs k w => CGetOrInsert (P:=P') rs k w
  | CGetMutOrInsert rs k w f => CGetMutOrInsert (P:=P') rs k w f
  | CRefOrGuard rs k g => CRefOrGuard (P:=P') rs k (re_guard g)
  | CMutOrGuard rs k f g => CMutOrGuard (P:=P') rs k f (re_guard g)
  end.
Definition re_event (e : event P) : event P' :=
  match e with EvBefore k v v' => EvBefore (P:=P') k v v' | EvEvict k v => EvEvict (P:=P') k v end.
Definition re_lev (e : lev P) : lev P' :=
  match e with LBegin rs => LBegin (P:=P') rs | LHook e => LHook (re_event e) | LEnd rs => LEnd (P:=P') rs end.
Definition re_ret (r : Unsync.ret P) : Unsync.ret P' :=
  match r with
  | RUnit => RUnit | RBool b => RBool b | RVal o => RVal (P:=P') o | RPair o => RPair (P:=P') o | RItems l => RItems (P:=P') l
  | RGuard => RGuard | RErr => RErr
  end.
Definition re_out (o : out P) : out P' :=
  Out (P:=P') (re_ret (o_ret o)) (re_lev <$> o_log o) (o_called o) (o_state o).
End rehash.
