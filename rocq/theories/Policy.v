(* Specification for C49: the replacement policy, as a machine on lists.

   The machine knows no slab, no tokens, no links, no hash table and no counters of weights. Its
   state is four lists and a map:
     q_hot, q_cold   the items that can be evicted; the front of a list is where its hand stands,
                     new items go to the back
     q_idle          the cached items of weight 0, which no hand ever visits (a set)
     q_ghosts        hashes of keys evicted from the cold list, oldest first
     q_loads         the keys with a load in progress: the key it was started with, and the list
                     the loaded item would enter
   An item is its key, its value, the list it belongs to and a use count. *)
From Verif Require Export Unsync.

Section policy.
Context {P : Params}.
Notation K := (K P). Notation V := (V P).
Notation item := (resident P).
Implicit Types (k : K) (v : V) (x y : item) (A B : list item) (l : lcs P).

Record limits := Limits { lm_budget : N; lm_ghosts : N; lm_capacity : N }.
Record policy := Pol {
  q_hot : list item;
  q_cold : list item;
  q_idle : list item;
  q_ghosts : list N;
  q_loads : K → option (K * rstate);
}.
Implicit Types (p q : policy) (lim : limits).
Definition q_empty : policy := Pol [] [] [] [] (λ _, None).

Definition put_hot p L := Pol L (q_cold p) (q_idle p) (q_ghosts p) (q_loads p).
Definition put_cold p L := Pol (q_hot p) L (q_idle p) (q_ghosts p) (q_loads p).
Definition put_idle p L := Pol (q_hot p) (q_cold p) L (q_ghosts p) (q_loads p).
Definition put_ghosts p G := Pol (q_hot p) (q_cold p) (q_idle p) G (q_loads p).
Definition put_load p k o :=
  Pol (q_hot p) (q_cold p) (q_idle p) (q_ghosts p) (λ k', if keqb P k k' then o else q_loads p k').
Definition q_list p (st : rstate) : list item := match st with Hot => q_hot p | Cold => q_cold p end.
Definition put_list p st L : policy := match st with Hot => put_hot p L | Cold => put_cold p L end.

Definition q_items p : list item := q_hot p ++ q_cold p ++ q_idle p.
Definition tweight (L : list item) : N := foldr (λ x n, weight P (r_key x) (r_val x) + n)%N 0%N L.
Definition weightless x : bool := (weight P (r_key x) (r_val x) =? 0)%N.
Definition is_pinned x : bool := pinned P (r_key x) (r_val x).
Definition put_val x v : item := Res (r_key x) v (r_state x) (r_ref x).
(* one more use, up to two *)
Definition used_more x : item := Res (r_key x) (r_val x) (r_state x) (if (r_ref x <? 2)%N then r_ref x + 1 else r_ref x).
(* one use less *)
Definition used_less x : item := Res (r_key x) (r_val x) (r_state x) (N.min (r_ref x) 2 - 1).

(* a new item goes to the back of its list *)
Definition to_back p x : policy :=
  if weightless x then put_idle p (q_idle p ++ [x])
  else put_list p (r_state x) (q_list p (r_state x) ++ [x]).

(* item x leaves the cache *)
Inductive leave p x : policy → Prop :=
  | leave_list st A B : q_list p st = A ++ x :: B → leave p x (put_list p st (A ++ B))
  | leave_idle A B : q_idle p = A ++ x :: B → leave p x (put_idle p (A ++ B)).

(* item x becomes y in the same list. It keeps its place, except when it loses its weight or
   gains one; losing it moves the hand to the item after it. *)
Inductive turn p x y : policy → Prop :=
  | turn_list st A B : q_list p st = A ++ x :: B → weightless y = false →
      turn p x y (put_list p st (A ++ y :: B))
  | turn_idle A B : q_idle p = A ++ x :: B → weightless y = true →
      turn p x y (put_idle p (A ++ y :: B))
  | turn_lost st A B : q_list p st = A ++ x :: B → weightless y = true →
      turn p x y (put_idle (put_list p st (B ++ A)) (q_idle p ++ [y]))
  | turn_gained A B : q_idle p = A ++ x :: B → weightless y = false →
      turn p x y (to_back (put_idle p (A ++ B)) y).

(* ---- the hand of the hot list ---- *)
(* [clock seen A B L o]: the hand has passed A and has B ahead of it. It skips pinned items and
   items in use, taking one use from each, until it meets an item that is neither; that item is
   taken out and the hand stands after it. It gives up after one round over pinned items only;
   [seen] says that an item that is not pinned was met. *)
Inductive clock : bool → list item → list item → list item → option item → Prop :=
  | clock_round seen A L o : A ≠ [] → clock seen [] A L o → clock seen A [] L o
  | clock_give_up A x : is_pinned x = true → clock false A [x] (A ++ [used_less x]) None
  | clock_pinned seen A x B L o : is_pinned x = true → seen = true ∨ B ≠ [] →
      clock seen (A ++ [used_less x]) B L o → clock seen A (x :: B) L o
  | clock_used seen A x B L o : is_pinned x = false → r_ref x ≠ 0%N →
      clock true (A ++ [used_less x]) B L o → clock seen A (x :: B) L o
  | clock_take seen A x B : is_pinned x = false → r_ref x = 0%N →
      clock seen A (x :: B) (B ++ A) (Some x).

(* an item taken out of the hot list is shown to before_evict; it stays, idle, if that made it
   weightless, and is evicted otherwise *)
Definition drop_hot p l x : policy * lcs P :=
  let '(l1, v1) := call_before l (r_key x) (r_val x) in
  let x1 := put_val x v1 in
  if weightless x1 then (put_idle p (q_idle p ++ [x1]), l1) else (p, call_evict l1 (r_key x) v1).
(* the same for the cold list, except that an evicted item leaves a ghost; when there are too
   many ghosts the oldest goes *)
Definition drop_cold lim p l x : policy * lcs P :=
  let '(l1, v1) := call_before l (r_key x) (r_val x) in
  let x1 := put_val x v1 in
  if weightless x1 then (put_idle p (q_idle p ++ [x1]), l1)
  else
    let G := q_ghosts p ++ [hash P (r_key x)] in
    (put_ghosts p (if (lm_ghosts lim <? N.of_nat (length G))%N then tail G else G),
     call_evict l1 (r_key x) v1).

(* [hot_hand p l q l' b]: one advance of the hot hand; b says whether it took something out *)
Inductive hot_hand p l : policy → lcs P → bool → Prop :=
  | hot_none : q_hot p = [] → hot_hand p l p l false
  | hot_stuck L : q_hot p ≠ [] → clock false [] (q_hot p) L None → hot_hand p l (put_hot p L) l false
  | hot_out L x q l' : clock false [] (q_hot p) L (Some x) → drop_hot (put_hot p L) l x = (q, l') →
      hot_hand p l q l' true.

(* the hot hand advances until the hot list is within its budget *)
Inductive trim lim p l : policy → lcs P → Prop :=
  | trim_done : (tweight (q_hot p) ≤ lm_budget lim)%N → trim lim p l p l
  | trim_stuck q l' : (lm_budget lim < tweight (q_hot p))%N → hot_hand p l q l' false → trim lim p l q l'
  | trim_more q1 l1 q l' : (lm_budget lim < tweight (q_hot p))%N → hot_hand p l q1 l1 true →
      trim lim q1 l1 q l' → trim lim p l q l'.

(* ---- the hand of the cold list ---- *)
(* it skips pinned items that were not used. The first other item is promoted to the back of the
   hot list if it was used, and dropped if not. When there is none the hot hand advances. *)
Definition skipped x : Prop := is_pinned x = true ∧ r_ref x = 0%N.
Inductive cold_hand lim p l : policy → lcs P → bool → Prop :=
  | cold_none q l' b : Forall skipped (q_cold p) → hot_hand p l q l' b → cold_hand lim p l q l' b
  | cold_up A x B q l' : q_cold p = A ++ x :: B → Forall skipped A → r_ref x ≠ 0%N →
      trim lim (to_back (put_cold p (B ++ A)) (Res (r_key x) (r_val x) Hot (r_ref x - 1))) l q l' →
      cold_hand lim p l q l' true
  | cold_out A x B q l' : q_cold p = A ++ x :: B → Forall skipped A → r_ref x = 0%N → is_pinned x = false →
      drop_cold lim (put_cold p (B ++ A)) l x = (q, l') → cold_hand lim p l q l' true.

(* the cold hand advances until there is room for [extra] *)
Inductive make_room lim (extra : N) p l : policy → lcs P → Prop :=
  | room_done : (tweight (q_hot p) + tweight (q_cold p) + extra ≤ lm_capacity lim)%N → make_room lim extra p l p l
  | room_stuck q l' : (lm_capacity lim < tweight (q_hot p) + tweight (q_cold p) + extra)%N →
      cold_hand lim p l q l' false → make_room lim extra p l q l'
  | room_more q1 l1 q l' : (lm_capacity lim < tweight (q_hot p) + tweight (q_cold p) + extra)%N →
      cold_hand lim p l q1 l1 true → make_room lim extra q1 l1 q l' → make_room lim extra p l q l'.

(* ---- what is known about a key ---- *)
Definition item_of p k x : Prop := x ∈ q_items p ∧ keqb P k (r_key x) = true.
Definition no_item p k : Prop := ∀ x, x ∈ q_items p → keqb P k (r_key x) = false.
Definition loading p k k0 st : Prop := no_item p k ∧ q_loads p k = Some (k0, st).
(* one ghost with the hash of k, and the machine without it *)
Definition ghost_of p k q : Prop := no_item p k ∧ q_loads p k = None ∧
  ∃ G1 G2, q_ghosts p = G1 ++ hash P k :: G2 ∧ q = put_ghosts p (G1 ++ G2).
Definition unknown p k : Prop := no_item p k ∧ q_loads p k = None ∧ hash P k ∉ q_ghosts p.

(* an item heavier than the hot budget, and not pinned, is shown to before_evict first; it is
   refused if it is still too heavy *)
Definition big lim k v : bool := (lm_budget lim <? weight P k v)%N && negb (pinned P k v).
Definition shown lim l k v : lcs P * V := if big lim k v then call_before l k v else (l, v).
Definition too_heavy lim k v v1 : bool := big lim k v && (lm_budget lim <? weight P k v1)%N.

(* [inserting lim p l k v strat q l' o]: the last argument is the pair handed back by a failing replace *)
Inductive inserting lim p l k v : strategy → policy → lcs P → option (K * V) → Prop :=
  | insert_refused_old strat l1 v1 x q : shown lim l k v = (l1, v1) → too_heavy lim k v v1 = true →
      item_of p k x → leave p x q →
      inserting lim p l k v strat q
        (if is_replace strat then call_evict l1 (r_key x) (r_val x) else call_evict (call_evict l1 (r_key x) (r_val x)) k v1)
        (if is_replace strat then Some (k, v1) else None)
  | insert_refused_new strat l1 v1 : shown lim l k v = (l1, v1) → too_heavy lim k v v1 = true →
      no_item p k →
      inserting lim p l k v strat p (if is_replace strat then l1 else call_evict l1 k v1)
        (if is_replace strat then Some (k, v1) else None)
  | insert_over strat l1 v1 x q1 q l' : shown lim l k v = (l1, v1) → too_heavy lim k v v1 = false →
      item_of p k x →
      turn p x (Res k v1 (r_state x) (N.min (r_ref x + if is_soft strat then 0 else 1) 2)) q1 →
      make_room lim 0 q1 (call_evict l1 (r_key x) (r_val x)) q l' →
      inserting lim p l k v strat q l' None
  | insert_nothing strat l1 v1 : shown lim l k v = (l1, v1) → too_heavy lim k v v1 = false →
      no_item p k → is_replace strat = true →
      inserting lim p l k v strat p l1 (Some (k, v1))
  | insert_loading l1 v1 k0 st q l' : shown lim l k v = (l1, v1) → too_heavy lim k v v1 = false →
      loading p k k0 st →
      make_room lim 0 (to_back (put_load p k None) (Res k v1 st 1)) l1 q l' →
      inserting lim p l k v Insert q l' None
  | insert_ghost l1 v1 q1 q l' : shown lim l k v = (l1, v1) → too_heavy lim k v v1 = false →
      ghost_of p k q1 →
      make_room lim 0 (to_back q1 (Res k v1 Hot 0)) l1 q l' →
      inserting lim p l k v Insert q l' None
  | insert_new l1 v1 q l' : shown lim l k v = (l1, v1) → too_heavy lim k v v1 = false →
      unknown p k →
      make_room lim (weight P k v1) p l1 q l' →
      inserting lim p l k v Insert
        (to_back q (Res k v1 (if (tweight (q_hot p) + weight P k v1 <=? lm_budget lim)%N then Hot else Cold) 0)) l' None.

(* a load of k starts, or goes on; [k0] is the key it was started with *)
Inductive start_load p k : policy → K → rstate → Prop :=
  | load_again k0 st : loading p k k0 st → start_load p k p k0 st
  | load_ghost q : ghost_of p k q → start_load p k (put_load q k (Some (k, Hot))) k Hot
  | load_new : unknown p k → start_load p k (put_load p k (Some (k, Cold))) k Cold.

(* the load of k ends with v; the new item starts with n uses *)
Inductive filling lim (n : N) p l k (st : rstate) v : policy → lcs P → Prop :=
  | fill_refused l1 v1 : shown lim l k v = (l1, v1) → too_heavy lim k v v1 = true →
      filling lim n p l k st v (put_load p k None) (call_evict l1 k v1)
  | fill_in l1 v1 q q1 l' : shown lim l k v = (l1, v1) → too_heavy lim k v v1 = false →
      q1 = to_back (put_load p k None)
             (Res k v1 (if (tweight (q_hot p) + tweight (q_cold p) + weight P k v1 <=? lm_capacity lim)%N then Hot else st) n) →
      (if (weight P k v1 =? 0)%N then q = q1 ∧ l' = l1 else make_room lim 0 q1 l1 q l') →
      filling lim n p l k st v q l'.

(* the caller of a method that returns a RefMut changes the value with f *)
Inductive writing p k (f : V → V) : option V → policy → Prop :=
  | writing_item x q : item_of p k x → turn p x (put_val x (f (r_val x))) q → writing p k f (Some (r_val x)) q
  | writing_none : no_item p k → writing p k f None p.
(* the value of k *)
Inductive reading p k : option V → Prop :=
  | reading_item x : item_of p k x → reading p k (Some (r_val x))
  | reading_none : no_item p k → reading p k None.

Inductive guard_ends lim p (rs : RS P) k (st : rstate) : guard_use P → out P → policy → Prop :=
  | guard_insert v wl q l' : filling lim 0 p (Lcs rs []) k st v q l' →
      guard_ends lim p rs k st (GInsert v wl) (finished rs l' wl RGuard false) q
  | guard_drop : guard_ends lim p rs k st GDrop (plain RGuard) (put_load p k None)
  | guard_forget : guard_ends lim p rs k st GForget (plain RGuard) p.

(* ---- one call ---- *)
Inductive pstep lim p : cmd P → out P → policy → Prop :=
  | p_contains k b : (b = true ↔ ∃ x, item_of p k x) → pstep lim p (CContains k) (plain (RBool b)) p
  | p_peek k o : reading p k o → pstep lim p (CPeek k) (plain (RVal o)) p
  | p_hit k x q : item_of p k x → turn p x (used_more x) q → pstep lim p (CGet k) (plain (RVal (Some (r_val x)))) q
  | p_miss k : no_item p k → pstep lim p (CGet k) (plain (RVal None)) p
  | p_hit_mut k f x q : item_of p k x → turn p x (put_val (used_more x) (f (r_val x))) q →
      pstep lim p (CGetMut k f) (plain (RVal (Some (r_val x)))) q
  | p_miss_mut k f : no_item p k → pstep lim p (CGetMut k f) (plain (RVal None)) p
  | p_peek_mut k f o q : writing p k f o q → pstep lim p (CPeekMut k f) (plain (RVal o)) q
  | p_remove_item k x q : item_of p k x → leave p x q →
      pstep lim p (CRemove k) (plain (RPair (Some (r_key x, r_val x)))) q
  | p_remove_load k k0 st : loading p k k0 st → pstep lim p (CRemove k) (plain (RPair None)) (put_load p k None)
  | p_remove_ghost k q : ghost_of p k q → pstep lim p (CRemove k) (plain (RPair None)) q
  | p_remove_none k : unknown p k → pstep lim p (CRemove k) (plain (RPair None)) p
  | p_replace rs k v soft wl q l' : inserting lim p (Lcs rs []) k v (Replace soft) q l' None →
      pstep lim p (CReplace rs k v soft wl) (finished rs l' wl (RPair None) false) q
  | p_replace_failed rs k v soft wl q l' kv : inserting lim p (Lcs rs []) k v (Replace soft) q l' (Some kv) →
      pstep lim p (CReplace rs k v soft wl) (Out (RPair (Some kv)) (LBegin rs :: hooks l') false None) q
  | p_insert rs k v wl q l' : inserting lim p (Lcs rs []) k v Insert q l' None →
      pstep lim p (CInsert rs k v wl) (finished rs l' wl RUnit false) q
  | p_retain f : let keep := List.filter (λ x, f (r_key x) (r_val x)) in
      pstep lim p (CRetain f) (plain RUnit)
        (Pol (keep (q_hot p)) (keep (q_cold p)) (keep (q_idle p)) (q_ghosts p) (q_loads p))
  | p_clear : pstep lim p CClear (plain RUnit) q_empty
  | p_drain L : L ≡ₚ map (λ x, (r_key x, r_val x)) (q_items p) → pstep lim p CDrain (plain (RItems L)) q_empty
  | p_reserve : pstep lim p CReserve (plain RUnit) p
  | p_load_hit rs k w x q : item_of p k x → turn p x (used_more x) q →
      pstep lim p (CGetOrInsert rs k w) (plain (RVal (Some (r_val x)))) q
  | p_load_failed rs k q k0 st : start_load p k q k0 st →
      pstep lim p (CGetOrInsert rs k None) (Out RErr [] true None) q
  | p_load rs k v q1 k0 st q l' o : start_load p k q1 k0 st → filling lim 0 q1 (Lcs rs []) k0 st v q l' → reading q k o →
      pstep lim p (CGetOrInsert rs k (Some v)) (Out (RVal o) (LBegin rs :: hooks l' ++ [LEnd (lrs l')]) true None) q
  | p_load_hit_mut rs k w f x q : item_of p k x → turn p x (put_val (used_more x) (f (r_val x))) q →
      pstep lim p (CGetMutOrInsert rs k w f) (plain (RVal (Some (r_val x)))) q
  | p_load_failed_mut rs k f q k0 st : start_load p k q k0 st →
      pstep lim p (CGetMutOrInsert rs k None f) (Out RErr [] true None) q
  | p_load_mut rs k v f q1 k0 st q2 l' o q : start_load p k q1 k0 st → filling lim 0 q1 (Lcs rs []) k0 st v q2 l' →
      writing q2 k f o q →
      pstep lim p (CGetMutOrInsert rs k (Some v) f) (Out (RVal o) (LBegin rs :: hooks l' ++ [LEnd (lrs l')]) true None) q
  | p_guard_hit rs k g x q : item_of p k x → turn p x (used_more x) q →
      pstep lim p (CRefOrGuard rs k g) (plain (RVal (Some (r_val x)))) q
  | p_guard rs k g q1 k0 st o q : start_load p k q1 k0 st → guard_ends lim q1 rs k0 st g o q →
      pstep lim p (CRefOrGuard rs k g) o q
  | p_guard_hit_mut rs k f g x q : item_of p k x → turn p x (put_val (used_more x) (f (r_val x))) q →
      pstep lim p (CMutOrGuard rs k f g) (plain (RVal (Some (r_val x)))) q
  | p_guard_mut rs k f g q1 k0 st o q : start_load p k q1 k0 st → guard_ends lim q1 rs k0 st g o q →
      pstep lim p (CMutOrGuard rs k f g) o q.

(* a history of calls *)
Inductive psteps lim : policy → list (cmd P) → list (out P) → policy → Prop :=
  | psteps_nil p : psteps lim p [] [] p
  | psteps_cons p c o q h os q' : pstep lim p c o q → psteps lim q h os q' → psteps lim p (c :: h) (o :: os) q'.

(* equal results, up to the order of a list of drained items *)
Definition same_out (o o' : out P) : Prop :=
  o_log o' = o_log o ∧ o_called o' = o_called o ∧ o_state o' = o_state o ∧
  match o_ret o, o_ret o' with
  | RItems L, RItems L' => L' ≡ₚ L
  | r, r' => r' = r
  end.
End policy.
Arguments policy : clear implicits.
