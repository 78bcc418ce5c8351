(* Specification vocabulary: what the user of the cache can observe. Nothing here mentions
   slabs, rings, hash tables or counters. *)
From Verif Require Export Table Shard.

Section spec.
Context (P : Params).
Notation K := (K P). Notation V := (V P). Notation RS := (RS P).

(* The cached items, in some order. *)
Definition contents := list (K * V).
Implicit Types (c : contents) (k : K) (v : V) (rs : RS) (es : list (event P)).

(* total weight, weight of the items that may be evicted *)
Definition wsum c : N := foldr (λ p a, weight P p.1 p.2 + a)%N 0%N c.
Definition uwsum c : N := wsum (filter (λ p, pinned P p.1 p.2 = false) c).

(* the cached pair whose key equals k *)
Fixpoint find_key k c : option (K * V) :=
  match c with
  | [] => None
  | p :: c' => if keqb P k p.1 then Some p else find_key k c'
  end.
Definition value_of k c : option V := snd <$> find_key k c.

Definition has k c : bool := match find_key k c with Some _ => true | None => false end.
(* no two cached items have equal keys *)
Fixpoint ukeys c : Prop :=
  match c with
  | [] => True
  | p :: c' => Forall (λ q, keqb P p.1 q.1 = false) c' ∧ ukeys c'
  end.

(* [evicts rs c es rs' c']: starting from request state rs and contents c, the cache makes
   room by a sequence of evictions. Each one picks an item that is not pinned and whose weight is not
   zero and calls before_evict on it; when that leaves the item with weight zero the item
   stays (with the value before_evict left), otherwise the item leaves the cache and is
   passed to on_evict. es lists the hook calls in order. *)
Inductive evicts : RS → contents → list (event P) → RS → contents → Prop :=
  | ev_done rs c c' : c ≡ₚ c' → evicts rs c [] rs c'
  | ev_keep rs c k v rest rs1 v' es rs' c' :
      c ≡ₚ (k, v) :: rest → pinned P k v = false → weight P k v ≠ 0%N →
      before_evict P rs k v = (rs1, v') → weight P k v' = 0%N →
      evicts rs1 ((k, v') :: rest) es rs' c' →
      evicts rs c (EvBefore k v v' :: es) rs' c'
  | ev_drop rs c k v rest rs1 v' es rs' c' :
      c ≡ₚ (k, v) :: rest → pinned P k v = false → weight P k v ≠ 0%N →
      before_evict P rs k v = (rs1, v') → weight P k v' ≠ 0%N →
      evicts (on_evict P rs1 k v') rest es rs' c' →
      evicts rs c (EvBefore k v v' :: EvEvict k v' :: es) rs' c'.

(* the contents without the items whose key equals k; with the values at k changed by f *)
Definition del k c : contents := List.filter (λ p, negb (keqb P k p.1)) c.
Definition upd k (f : V → V) c : contents :=
  List.map (λ p, if keqb P k p.1 then (p.1, f p.2) else p) c.

(* only pinned or weightless items: nothing can be evicted *)
Definition all_pinned c : Prop := ∀ k v, (k, v) ∈ c → weight P k v ≠ 0%N → pinned P k v = true.

(* Admission of a new value: a value heavier than the budget and not pinned is first offered
   to before_evict; it is refused when it is still too heavy. Returns the request state, the
   hook calls, the value, and whether it is refused. *)
Definition admission (budget : N) rs k v : RS * list (event P) * V * bool :=
  if (budget <? weight P k v)%N && negb (pinned P k v) then
    let '(rs1, v1) := before_evict P rs k v in
    (rs1, [EvBefore k v v1], v1, (budget <? weight P k v1)%N)
  else (rs, [], v, false).

(* What insert (create = true) and replace (create = false) may do to the contents c of a
   shard with the given capacity and budget: hook calls, contents afterwards and, for a refused
   replace, the pair handed back. *)
Inductive inserts (cap budget : N) (create : bool) rs c k v
  : list (event P) → RS → contents → option (K * V) → Prop :=
  (* refused, key not cached *)
  | ins_over_none rs1 es v1 c' :
      admission budget rs k v = (rs1, es, v1, true) → find_key k c = None → c' ≡ₚ c →
      inserts cap budget create rs c k v
        (es ++ (if create then [EvEvict k v1] else []))
        (if create then on_evict P rs1 k v1 else rs1) c'
        (if create then None else Some (k, v1))
  (* refused, and the old value is dropped as well *)
  | ins_over_some rs1 es v1 ko vo c' :
      admission budget rs k v = (rs1, es, v1, true) → find_key k c = Some (ko, vo) → c' ≡ₚ del k c →
      inserts cap budget create rs c k v
        (es ++ EvEvict ko vo :: (if create then [EvEvict k v1] else []))
        (if create then on_evict P (on_evict P rs1 ko vo) k v1 else on_evict P rs1 ko vo) c'
        (if create then None else Some (k, v1))
  (* replace of a key that is not cached *)
  | ins_no_replace rs1 es v1 c' :
      admission budget rs k v = (rs1, es, v1, false) → find_key k c = None → create = false → c' ≡ₚ c →
      inserts cap budget create rs c k v es rs1 c' (Some (k, v1))
  (* the old value is dropped, then the cache makes room *)
  | ins_replace rs1 es v1 ko vo es2 rs' c' :
      admission budget rs k v = (rs1, es, v1, false) → find_key k c = Some (ko, vo) →
      evicts (on_evict P rs1 ko vo) ((k, v1) :: del k c) es2 rs' c' →
      ((wsum c' ≤ cap)%N ∨ all_pinned c') →
      ((wsum ((k, v1) :: del k c) ≤ cap)%N → es2 = []) →
      inserts cap budget create rs c k v (es ++ EvEvict ko vo :: es2) rs' c' None
  (* a new key: the cache makes room before admitting the value *)
  | ins_new rs1 es v1 es2 rs' c1 c' :
      admission budget rs k v = (rs1, es, v1, false) → find_key k c = None → create = true →
      evicts rs1 c es2 rs' c1 →
      ((wsum c1 + weight P k v1 ≤ cap)%N ∨ all_pinned c1) →
      ((wsum c + weight P k v1 ≤ cap)%N → es2 = []) →
      c' ≡ₚ (k, v1) :: c1 →
      inserts cap budget create rs c k v (es ++ es2) rs' c' None
  (* a key evicted recently, or being loaded: the cache makes room after admitting the value *)
  | ins_back rs1 es v1 es2 rs' c' :
      admission budget rs k v = (rs1, es, v1, false) → find_key k c = None → create = true →
      evicts rs1 ((k, v1) :: c) es2 rs' c' →
      ((wsum c' ≤ cap)%N ∨ all_pinned c') →
      ((wsum c + weight P k v1 ≤ cap)%N → es2 = []) →
      inserts cap budget create rs c k v (es ++ es2) rs' c' None.

(* What inserting the value loaded for a pending key k may do. *)
Inductive loads (cap budget : N) rs c k v : list (event P) → RS → contents → Prop :=
  (* refused *)
  | ld_over rs1 es v1 c' :
      admission budget rs k v = (rs1, es, v1, true) → c' ≡ₚ c →
      loads cap budget rs c k v (es ++ [EvEvict k v1]) (on_evict P rs1 k v1) c'
  (* a weightless value: nothing is evicted *)
  | ld_zero rs1 es v1 c' :
      admission budget rs k v = (rs1, es, v1, false) → weight P k v1 = 0%N → c' ≡ₚ (k, v1) :: c →
      loads cap budget rs c k v es rs1 c'
  | ld_in rs1 es v1 es2 rs' c' :
      admission budget rs k v = (rs1, es, v1, false) → weight P k v1 ≠ 0%N →
      evicts rs1 ((k, v1) :: c) es2 rs' c' →
      ((wsum c' ≤ cap)%N ∨ all_pinned c') →
      ((wsum c + weight P k v1 ≤ cap)%N → es2 = []) →
      loads cap budget rs c k v (es ++ es2) rs' c'.
End spec.
Arguments evicts {P}. Arguments ukeys {P}. Arguments find_key {P}. Arguments value_of {P}. Arguments has {P}.
Arguments del {P}. Arguments upd {P}. Arguments all_pinned {P}. Arguments admission {P}. Arguments inserts {P}. Arguments loads {P}.
Arguments wsum {P}. Arguments uwsum {P}.
