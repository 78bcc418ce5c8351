(* Scan resistance: a cache holds a working set, then many keys it has never seen come by. *)
From Verif Require Export PropSpec.

Section scan.
Context {P : Params}.
Notation K := (K P). Notation V := (V P).

(* The item a call offers, if the calls that follow are inserts and loads that succeed. *)
Definition offer (c : cmd P) : option (K * V) :=
  match c with CInsert _ k v _ | CGetOrInsert _ k (Some v) => Some (k, v) | _ => None end.
(* the total weight of the items offered by a list of calls *)
Definition offered_weight (h : list (cmd P)) : N :=
  foldr (λ c n, match offer c with Some (k, v) => weight P k v + n | None => n end)%N 0%N h.
Definition offered_keys (h : list (cmd P)) : list K := omap (λ c, fst <$> offer c) h.

(* The working set is built: items that fit into the hot budget, of total weight at most lim.
   The room for items that are loaded is the whole capacity, the room for items that are
   inserted is the hot budget. *)
Definition warm_call (budget lim : N) (c : cmd P) : Prop :=
  match c with
  | CInsert _ k v _ => (weight P k v ≤ budget)%N ∧ (lim ≤ budget)%N
  | CGetOrInsert _ k (Some v) => (weight P k v ≤ budget)%N
  | CGet _ | CPeek _ | CContains _ | CRemove _ => True
  | _ => False
  end.
Definition warm (budget lim : N) (h : list (cmd P)) : Prop :=
  Forall (warm_call budget lim) h ∧ (offered_weight h ≤ lim)%N.

(* [scanning … seen new h]: the calls h insert or load keys whose hash is not that of a key seen
   before. None of these items is pinned. A load may be as heavy as it likes; an insert must
   leave room for lim. In between the working set W may be read, and loaded where it is cached;
   anything may be peeked at; and what is not in the working set may be removed. The items that
   are scanned are not read. *)
Fixpoint scanning (budget cap lim : N) (W : contents P) (seen new : list K) (h : list (cmd P)) : Prop :=
  match h with
  | [] => True
  | c :: h =>
      let fresh k := ∀ k', k' ∈ seen → hash P k' ≠ hash P k in
      let loose rs k v := ¬ refused budget rs k v → pinned P k (stored budget rs k v) = false in
      match c with
      | CInsert rs k v _ =>
          fresh k ∧ loose rs k v ∧ (budget ≤ lim)%N ∧
          (¬ refused budget rs k v → weight P k (stored budget rs k v) + lim ≤ cap)%N ∧
          scanning budget cap lim W (k :: seen) (k :: new) h
      | CGetOrInsert rs k (Some v) =>
          (find_key k W ≠ None ∧ scanning budget cap lim W (k :: seen) new h) ∨
          (fresh k ∧ loose rs k v ∧ (cap ≤ lim)%N ∧ scanning budget cap lim W (k :: seen) (k :: new) h)
      | CGet k => (∀ k', k' ∈ new → keqb P k k' = false) ∧ scanning budget cap lim W seen new h
      | CRemove k => find_key k W = None ∧ scanning budget cap lim W seen new h
      | CPeek _ | CContains _ => scanning budget cap lim W seen new h
      | _ => False
      end
  end.
End scan.
