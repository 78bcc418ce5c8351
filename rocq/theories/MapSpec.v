(* Specification: a plain map, without capacity, and what it means that everything a history of
   calls stores has room in a cache. Nothing here mentions evictions. *)
From Verif Require Export PropSpec SyncSpec.

Section mapspec.
Context {P : Params}.
Notation K := (K P). Notation V := (V P).
Notation contents := (contents P). Notation out := (out P). Notation cmd := (cmd P). Notation ret := (ret P).
Implicit Types (c : contents) (k : K) (v : V).

(* What a plain map with the pairs c returns for a call, and its pairs afterwards. *)
Definition map_exec c (m : cmd) : ret * contents :=
  match m with
  | CContains k => (RBool (has k c), c)
  | CGet k | CPeek k => (RVal (value_of k c), c)
  | CGetMut k f | CPeekMut k f => (RVal (value_of k c), Spec.upd k f c)
  | CRemove k => (RPair (find_key k c), del k c)
  | CReplace _ k v _ _ => if has k c then (RPair None, (k, v) :: del k c) else (RPair (Some (k, v)), c)
  | CInsert _ k v _ => (RUnit, (k, v) :: del k c)
  | CRetain f => (RUnit, List.filter (λ p, f p.1 p.2) c)
  | CClear => (RUnit, [])
  | CDrain => (RItems c, [])
  | CReserve => (RUnit, c)
  | CGetOrInsert _ k w =>
      match value_of k c, w with
      | Some v, _ => (RVal (Some v), c)
      | None, None => (RErr, c)
      | None, Some v => (RVal (Some v), (k, v) :: c)
      end
  | CGetMutOrInsert _ k w f =>
      match value_of k c, w with
      | Some v, _ => (RVal (Some v), Spec.upd k f c)
      | None, None => (RErr, c)
      | None, Some v => (RVal (Some v), (k, f v) :: c)
      end
  | CRefOrGuard _ k g =>
      match value_of k c, g with
      | Some v, _ => (RVal (Some v), c)
      | None, GInsert v _ => (RGuard, (k, v) :: c)
      | None, _ => (RGuard, c)
      end
  | CMutOrGuard _ k f g =>
      match value_of k c, g with
      | Some v, _ => (RVal (Some v), Spec.upd k f c)
      | None, GInsert v _ => (RGuard, (k, v) :: c)
      | None, _ => (RGuard, c)
      end
  end.
(* the pair a call overwrites, which is handed to on_evict *)
Definition overwrites c (m : cmd) : list (event P) :=
  match m with
  | CReplace _ k _ _ _ | CInsert _ k _ _ => match find_key k c with Some (ko, vo) => [EvEvict ko vo] | None => [] end
  | _ => []
  end.

(* a cache of this budget and capacity takes v as it is; and has room for it next to c *)
Definition takes (budget : N) k v : Prop := (weight P k v ≤ budget)%N ∨ pinned P k v = true.
Definition room (cap budget : N) c k v : Prop := takes budget k v ∧ (wsum ((k, v) :: del k c) ≤ cap)%N.
Definition fits (cap budget : N) c (m : cmd) : Prop :=
  match m with
  | CInsert _ k v _ => room cap budget c k v
  | CReplace _ k v _ _ => takes budget k v ∧ (has k c = true → room cap budget c k v)
  | CGetOrInsert _ k (Some v) | CGetMutOrInsert _ k (Some v) _
  | CRefOrGuard _ k (GInsert v _) | CMutOrGuard _ k _ (GInsert v _) => has k c = true ∨ room cap budget c k v
  | _ => True
  end.

(* the key a call brings along, if it may store a value *)
Definition brings (m : cmd) : option K :=
  match m with
  | CInsert _ k _ _ | CReplace _ k _ _ _ | CGetOrInsert _ k _ | CGetMutOrInsert _ k _ _ | CRefOrGuard _ k _ | CMutOrGuard _ k _ _ => Some k
  | _ => None
  end.

(* the history h on a map with the pairs c: the pairs at the end, and before each call *)
Definition map_after c (h : list cmd) : contents := foldl (λ c m, (map_exec c m).2) c h.
(* every call of h on a new map fits *)
Definition all_fit (cap budget : N) (h : list cmd) : Prop :=
  ∀ h1 m h2, h = h1 ++ m :: h2 → fits cap budget (map_after [] h1) m.
(* the same answer; the order in which drain lists the pairs is not specified *)
Definition agree (r r' : ret) : Prop :=
  match r, r' with RItems l, RItems l' => l ≡ₚ l' | _, _ => r = r' end.
(* keys that compare equal are the same *)
Definition same_keys : Prop := ∀ k k', keqb P k k' = true → k = k'.

(* ---- the same for a shard of the sync cache, with its pending loads ---- *)
Definition map_pend (m : cmd) (pd : N → option K) : N → option K :=
  match m with
  | CRemove k | CInsert _ k _ _ => pdel k pd
  | CClear => λ _, None
  | _ => pd
  end.
Definition map_sec (d : sst P) (x : sop P) (r : sres P) (d' : sst P) : Prop :=
  let '(SSt c pd n) := d in let '(SSt c' pd' n') := d' in
  match x, r with
  | OCmd m, SO o =>
      sync_cmd m = true ∧ agree (o_ret o) (map_exec c m).1 ∧ hooks_of o = overwrites c m ∧
      c' = (map_exec c m).2 ∧ same_pend pd' (map_pend m pd) ∧ n' = n
  | OJoin k, SHit v => value_of k c = Some v ∧ c' = c ∧ same_pend pd' pd ∧ n' = n
  | OJoin k, SWait id =>
      value_of k c = None ∧ pd id = Some k ∧ c' = c ∧ same_pend pd' pd ∧ n' = n
  | OJoin k, SNew id =>
      value_of k c = None ∧ (∀ i, pd i ≠ Some k) ∧ id = n ∧
      c' = c ∧ same_pend pd' (pset id (Some k) pd) ∧ n' = (n + 1)%N
  | OFill _ id v _, SO o =>
      ∃ k, pd id = Some k ∧ hooks_of o = [] ∧ c' = (k, v) :: c ∧ same_pend pd' (pset id None pd) ∧ n' = n
  | OFill _ id v _, SStale v' => pd id = None ∧ v' = v ∧ c' = c ∧ same_pend pd' pd ∧ n' = n
  | ODrop id, SGone => c' = c ∧ same_pend pd' (pset id None pd) ∧ n' = n
  | _, _ => False
  end.
Inductive map_secs : list (sop P * sres P) → sst P → Prop :=
  | ms_new : map_secs [] (SSt [] (λ _, None) 0)
  | ms_step g d x r d' : map_secs g d → map_sec d x r d' → map_secs (g ++ [(x, r)]) d'.
(* what the section stores has room *)
Definition sec_fits (cap budget : N) (d : sst P) (x : sop P) (r : sres P) : Prop :=
  match x, r with
  | OCmd m, _ => fits cap budget (ss_items d) m
  | OFill _ id v _, SO _ => ∀ k, ss_pend d id = Some k → takes budget k v ∧ (wsum ((k, v) :: ss_items d) ≤ cap)%N
  | _, _ => True
  end.
Definition secs_fit (cap budget : N) (g : list (sop P * sres P)) : Prop :=
  ∀ g1 x r g2 d, g = g1 ++ (x, r) :: g2 → map_secs g1 d → sec_fits cap budget d x r.
(* the key a section brings along *)
Definition sec_brings (x : sop P) : option K := match x with OCmd m => brings m | OJoin k => Some k | _ => None end.
End mapspec.
