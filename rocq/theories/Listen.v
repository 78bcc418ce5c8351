(* Specification for C62: the same cache with another lifecycle, which lets before_evict put the
   same values but is free in everything else: the type of its request states, what the hooks
   do to them, and the states the calls start with. *)
From Verif Require Export PolicyKeys PropSpec SyncSpec.

Definition listened (P : Params) (R : Type) (b : R → K P → V P → R * V P) (o : R → K P → V P → R) : Params := {|
  K := K P; V := V P; RS := R;
  keqb := keqb P;
  hash := hash P;
  weight := weight P;
  pinned := pinned P;
  before_evict := b;
  on_evict := o;
  probe := probe P;
  titer := titer P;
  grows := grows P;
  ptr_ids := ptr_ids P;
|}.
(* before_evict puts the same value, whatever the request states *)
Definition same_values (P : Params) (R : Type) (b : R → K P → V P → R * V P) : Prop :=
  ∀ rs r k v, (b r k v).2 = (before_evict P rs k v).2.

Section listen.
Context {P : Params} {R : Type} {b : R → K P → V P → R * V P} {o : R → K P → V P → R}.
Notation P' := (listened P R b o).

Definition li_guard (g : guard_use P) : guard_use P' :=
  match g with GInsert v wl => GInsert (P:=P') v wl | GDrop => GDrop | GForget => GForget end.
(* the same call, with the request state r *)
Definition with_state (r : R) (m : cmd P) : cmd P' :=
  match m with
  | CContains k => CContains (P:=P') k | CGet k => CGet (P:=P') k | CPeek k => CPeek (P:=P') k
  | CGetMut k f => CGetMut (P:=P') k f | CPeekMut k f => CPeekMut (P:=P') k f
  | CRemove k => CRemove (P:=P') k
  | CReplace _ k v soft wl => CReplace (P:=P') r k v soft wl
  | CInsert _ k v wl => CInsert (P:=P') r k v wl
  | CRetain f => CRetain (P:=P') f
  | CClear => CClear | CDrain => CDrain | CReserve => CReserve
  | CGetOrInsert _ k w => CGetOrInsert (P:=P') r k w
  | CGetMutOrInsert _ k w f => CGetMutOrInsert (P:=P') r k w f
  | CRefOrGuard _ k g => CRefOrGuard (P:=P') r k (li_guard g)
  | CMutOrGuard _ k f g => CMutOrGuard (P:=P') r k f (li_guard g)
  end.
Definition same_call (m : cmd P) (m' : cmd P') : Prop := ∃ r, m' = with_state r m.
Definition li_event (e : event P) : event P' :=
  match e with EvBefore k v v' => EvBefore (P:=P') k v v' | EvEvict k v => EvEvict (P:=P') k v end.
Definition li_ret (r : Unsync.ret P) : Unsync.ret P' :=
  match r with
  | RUnit => RUnit | RBool b => RBool b | RVal o => RVal (P:=P') o | RPair o => RPair (P:=P') o | RItems l => RItems (P:=P') l
  | RGuard => RGuard | RErr => RErr
  end.
End listen.
(* the calls of before_evict and on_evict in a log, in order *)
Definition heard {P : Params} (l : list (lev P)) : list (event P) := omap (λ e, match e with LHook e => Some e | _ => None end) l.
(* the same result (up to the order of drained items), hook calls, and calls of the loader *)
Definition same_result {P R b o} (x : out P) (x' : out (listened P R b o)) : Prop :=
  heard (o_log x') = li_event <$> heard (o_log x) ∧ o_called x' = o_called x ∧
  match li_ret (o_ret x), o_ret x' with
  | RItems L, RItems L' => L' ≡ₚ L
  | r, r' => r' = r
  end.

(* ---- one lifecycle, other request states ---- *)
(* what before_evict puts does not depend on the request state *)
Definition state_blind (P : Params) : Prop := ∀ rs rs' k v, (before_evict P rs k v).2 = (before_evict P rs' k v).2.
(* the same call, with the request state r *)
Definition restate {P : Params} (r : RS P) (m : cmd P) : cmd P :=
  match m with
  | CReplace _ k v soft wl => CReplace r k v soft wl
  | CInsert _ k v wl => CInsert r k v wl
  | CGetOrInsert _ k w => CGetOrInsert r k w
  | CGetMutOrInsert _ k w f => CGetMutOrInsert r k w f
  | CRefOrGuard _ k g => CRefOrGuard r k g
  | CMutOrGuard _ k f g => CMutOrGuard r k f g
  | m => m
  end.
Definition same_but_state {P : Params} (m m' : cmd P) : Prop := ∃ r, m' = restate r m.
(* the same result, hook calls, and calls of the loader *)
Definition same_seen {P : Params} (x x' : out P) : Prop :=
  heard (o_log x') = heard (o_log x) ∧ o_called x' = o_called x ∧ o_ret x' = o_ret x.
(* the same call of the sync cache, with the request state r *)
Definition s_restate {P : Params} (r : RS P) (m : scmd P) : scmd P :=
  match m with
  | SKey k m => SKey k (restate r m)
  | SAll m => SAll m
  | SValueOrGuard _ k g => SValueOrGuard r k g
  | SGetOrInsert _ k w => SGetOrInsert r k w
  end.
Definition s_same_but_state {P : Params} (m m' : scmd P) : Prop := ∃ r, m' = s_restate r m.
