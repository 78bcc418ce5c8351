(* The vocabulary of the property theorems. It only mentions API calls, what they return, and
   the cached pairs. *)
From Verif Require Export ApiSpec.

Section propspec.
Context {P : Params}.
Notation K := (K P). Notation V := (V P). Notation RS := (RS P).
Notation contents := (contents P). Notation out := (out P). Notation cmd := (cmd P).
Implicit Types (c : contents) (k : K) (v : V) (rs : RS) (es : list (event P)).

(* A history h of calls on a cache built with the given hot budget, ghost capacity and
   capacity returned the outcomes os and left the cache in state s. *)
Definition history (budget ghosts cap : N) (h : list cmd) (os : list out) (s : shard P) : Prop :=
  run (sh_new budget ghosts cap) h = Ok (s, os).

(* ---- which keys a call may write, erase ---- *)
(* the in-place change a call may make *)
Definition mutation (m : cmd) : option (K * (V → V)) :=
  match m with
  | CGetMut k f | CPeekMut k f | CGetMutOrInsert _ k _ f | CMutOrGuard _ k f _ => Some (k, f)
  | _ => None
  end.
(* in-place changes never raise the weight; never raise it nor unpin *)
Definition no_growth (m : cmd) : Prop :=
  match mutation m with
  | Some (k, f) => ∀ k' v, keqb P k k' = true → (weight P k' (f v) ≤ weight P k' v)%N
  | None => True
  end.
Definition no_growth_unpin (m : cmd) : Prop :=
  match mutation m with
  | Some (k, f) => ∀ k' v, keqb P k k' = true → 
      (weight P k' (f v) ≤ weight P k' v)%N ∧ (pinned P k' v = true → pinned P k' (f v) = true)
  | None => True
  end.
(* can m make a key appear that was not cached? *)
Definition creates (m : cmd) k : bool :=
  match m with
  | CInsert _ k' _ _
  | CGetOrInsert _ k' (Some _) | CGetMutOrInsert _ k' (Some _) _
  | CRefOrGuard _ k' (GInsert _ _) | CMutOrGuard _ k' _ (GInsert _ _) => keqb P k k'
  | _ => false
  end.
(* the pair a call offers to the cache *)
Definition written (m : cmd) : option (K * V) :=
  match m with
  | CReplace _ k v _ _ | CInsert _ k v _
  | CGetOrInsert _ k (Some v) | CGetMutOrInsert _ k (Some v) _
  | CRefOrGuard _ k (GInsert v _) | CMutOrGuard _ k _ (GInsert v _) => Some (k, v)
  | _ => None
  end.
(* does m remove the entry of k from contents c? *)
Definition erases (m : cmd) k c : Prop :=
  match m with
  | CRemove k' => keqb P k k' = true
  | CClear | CDrain => True
  | CRetain f => ∀ k' v, (k', v) ∈ c → keqb P k k' = true → f k' v = false
  | _ => False
  end.

(* ---- the last value written ---- *)
Inductive effect :=
  | Wrote k v | Mutated k (f : V → V) | Erased k | Filtered (f : K → V → bool) | ErasedAll.
Definition hit (o : out) : bool := match o_ret o with RVal (Some _) => true | _ => false end.
Definition effects (m : cmd) (o : out) : list effect :=
  match m with
  | CGetMut k f | CPeekMut k f => if hit o then [Mutated k f] else []
  | CRemove k => [Erased k]
  | CReplace _ k v _ _ => match o_ret o with RPair None => [Wrote k v] | _ => [] end
  | CInsert _ k v _ => [Wrote k v]
  | CRetain f => [Filtered f]
  | CClear | CDrain => [ErasedAll]
  | CGetOrInsert _ k w => match w with Some v => if o_called o then [Wrote k v] else [] | None => [] end
  | CGetMutOrInsert _ k w f =>
      match w with Some v => if o_called o then [Wrote k v] else [] | None => [] end ++
      (if hit o then [Mutated k f] else [])
  | CRefOrGuard _ k g => match o_ret o, g with RGuard, GInsert v _ => [Wrote k v] | _, _ => [] end
  | CMutOrGuard _ k f g =>
      if hit o then [Mutated k f] else
      match o_ret o, g with RGuard, GInsert v _ => [Wrote k v] | _, _ => [] end
  | _ => []
  end.
(* the effects of a history, oldest first *)
Fixpoint past (h : list cmd) (os : list out) : list effect :=
  match h, os with m :: h, o :: os => effects m o ++ past h os | _, _ => [] end.

(* [came_from fs k v]: v is the value of the last write to k, as changed by the in-place
   mutations of k since, and by before_evict calls on k; and k was not erased since. *)
Inductive came_from : list effect → K → V → Prop :=
  | cf_wrote fs k k' v : keqb P k k' = true → came_from (fs ++ [Wrote k' v]) k v
  | cf_wrote_other fs k k' v v' : came_from fs k v → keqb P k k' = false → came_from (fs ++ [Wrote k' v']) k v
  | cf_mutated fs k k' f v : came_from fs k v → keqb P k k' = true → came_from (fs ++ [Mutated k' f]) k (f v)
  | cf_mutated_other fs k k' f v : came_from fs k v → keqb P k k' = false → came_from (fs ++ [Mutated k' f]) k v
  | cf_erased_other fs k k' v : came_from fs k v → keqb P k k' = false → came_from (fs ++ [Erased k']) k v
  | cf_filtered fs k k' f v : came_from fs k v → keqb P k k' = true → f k' v = true → came_from (fs ++ [Filtered f]) k v
  | cf_hook fs k k' rs rs' v v' : came_from fs k v → keqb P k k' = true → before_evict P rs k' v = (rs', v') →
      came_from fs k v'.
(* the same as a function, for lifecycles that leave before_evict alone *)
Definition last_value (fs : list effect) k : option V :=
  foldl (λ o e, match e with
    | Wrote k' v => if keqb P k k' then Some v else o
    | Mutated k' f => if keqb P k k' then f <$> o else o
    | Erased k' => if keqb P k k' then None else o
    | Filtered f => match o with Some v => if f k v then Some v else None | None => None end
    | ErasedAll => None
    end) None fs.

(* ---- eviction reports ---- *)
(* [explains c es c']: the hook calls es account for the difference between the items c held
   or offered at the start and the items c' held or handed back at the end: before_evict
   changes the value of one of them, on_evict takes one of them away. *)
Inductive explains : contents → list (event P) → contents → Prop :=
  | ex_done c c' : c ≡ₚ c' → explains c [] c'
  | ex_before c k v v' rest es c' : c ≡ₚ (k, v) :: rest → explains ((k, v') :: rest) es c' →
      explains c (EvBefore k v v' :: es) c'
  | ex_evict c k v rest es c' : c ≡ₚ (k, v) :: rest → explains rest es c' →
      explains c (EvEvict k v :: es) c'.

(* a run of evictions: each before_evict is followed by the on_evict of the same pair exactly
   when the item still has weight *)
Fixpoint evictions es : Prop :=
  match es with
  | [] => True
  | EvBefore k v v' :: es' =>
      pinned P k v = false ∧ weight P k v ≠ 0%N ∧ (∃ rs rs', before_evict P rs k v = (rs', v')) ∧
      if (weight P k v' =? 0)%N then evictions es'
      else match es' with EvEvict k2 v2 :: es'' => k2 = k ∧ v2 = v' ∧ evictions es'' | _ => False end
  | EvEvict _ _ :: _ => False
  end.

(* the value is too heavy for the cache, even after before_evict had a chance to shrink it *)
Definition refused (budget : N) rs k v : Prop :=
  (budget < weight P k v)%N ∧ pinned P k v = false ∧ (budget < weight P k (before_evict P rs k v).2)%N.
(* the value actually stored: before_evict is called on values that are too heavy *)
Definition stored (budget : N) rs k v : V :=
  if (budget <? weight P k v)%N && negb (pinned P k v) then (before_evict P rs k v).2 else v.

(* [turned k v v']: before_evict calls on key k may turn v into v' *)
Definition turned k : V → V → Prop := rtc (λ v v', ∃ rs rs', before_evict P rs k v = (rs', v')).

(* the call leaves the item (k, v) alone, unless it has to make room *)
Definition spares (m : cmd) k v : Prop :=
  match m with
  | CGetMut k' _ | CPeekMut k' _ | CRemove k' | CReplace _ k' _ _ _ | CInsert _ k' _ _
  | CGetMutOrInsert _ k' _ _ | CMutOrGuard _ k' _ _ => keqb P k' k = false
  | CRetain f => f k v = true
  | CClear | CDrain => False
  | _ => True
  end.

(* the hook calls in the log of a call *)
Definition hooks_of (o : out) : list (event P) :=
  omap (λ e, match e with LHook ev => Some ev | _ => None end) (o_log o).
(* the items reported to on_evict *)
Definition evicted es : contents := omap (λ e, match e with EvEvict k v => Some (k, v) | _ => None end) es.
(* [threads rs es rs']: the hooks es were called one after the other, each with the request
   state the previous one left, from rs to rs' *)
Fixpoint threads rs es rs' : Prop :=
  match es with
  | [] => rs' = rs
  | EvBefore k v v' :: es => ∃ rs1, before_evict P rs k v = (rs1, v') ∧ threads rs1 es rs'
  | EvEvict k v :: es => threads (on_evict P rs k v) es rs'
  end.

(* [bracketed rs wl o]: one request was opened with begin_request, whose state rs went through
   the hooks, and was closed once with end_request, or handed to the caller when wl *)
Definition bracketed rs (wl : bool) (o : out) : Prop := ∃ rs',
  threads rs (hooks_of o) rs' ∧
  o_log o = LBegin rs :: (LHook <$> hooks_of o) ++ (if wl then [] else [LEnd rs']) ∧
  o_state o = (if wl then Some rs' else None).

(* ---- statistics ---- *)
(* calls that count a hit or a miss *)
Definition counted (m : cmd) : bool :=
  match m with
  | CGet _ | CGetMut _ _ | CGetOrInsert _ _ _ | CGetMutOrInsert _ _ _ _ | CRefOrGuard _ _ _ | CMutOrGuard _ _ _ _ => true
  | _ => false
  end.

(* ---- memory ---- *)
(* the entries kept for keys that were evicted *)
Definition remembered (s : shard P) : list (entry P) :=
  List.filter (λ e, match e with Ghost _ => true | _ => false end) (slab_iter (sh_ents s)).
(* the number of slots of the cache's storage, free ones included: it never shrinks, except
   by clear and drain *)
Definition storage (s : shard P) : N := N.of_nat (length (ents (sh_ents s))).

(* ---- pending loads ---- *)
(* calls that may start a load *)
Definition guarded (m : cmd) : bool :=
  match m with CGetOrInsert _ _ _ | CGetMutOrInsert _ _ _ _ | CRefOrGuard _ _ _ | CMutOrGuard _ _ _ _ => true | _ => false end.
(* the number of calls that may have abandoned a load *)
Definition abandoned (h : list cmd) : N := N.of_nat (length (List.filter abandons h)).
End propspec.
Arguments effect : clear implicits.
