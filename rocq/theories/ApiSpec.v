(* Specification of the unsync API: what one call may return and do to the contents. Nothing
   here mentions slabs, rings, hash tables or counters. *)
From Verif Require Export Unsync Spec.

Section api.
Context {P : Params}.
Notation K := (K P). Notation V := (V P). Notation RS := (RS P).
Notation contents := (contents P). Notation out := (out P). Notation cmd := (cmd P). Notation ret := (ret P).
Implicit Types (c : contents) (k : K) (v : V) (rs : RS) (es : list (event P)).

(* The result of a call that ran one lifecycle request: begin_request gave rs, the hooks es
   were called, and the final state rs' went to end_request, or to the caller when wl. *)
Definition reply rs es rs' (wl : bool) (r : ret) (called : bool) : out :=
  Out r (LBegin rs :: (LHook <$> es) ++ (if wl then [] else [LEnd rs'])) called
    (if wl then Some rs' else None).

(* What using a guard for the absent key k may do. The key stored is the one the pending entry
   was created with, which equals k. *)
Definition guards (cap budget : N) c rs k (g : guard_use P) (o : out) c' : Prop :=
  match g with
  | GInsert v wl => ∃ kp es rs', keqb P k kp = true ∧ loads cap budget rs c kp v es rs' c' ∧
      o = reply rs es rs' wl RGuard false
  | GDrop | GForget => c' ≡ₚ c ∧ o = plain RGuard
  end.

Definition does (cap budget : N) c (m : cmd) (o : out) c' : Prop :=
  match m with
  | CContains k => c' ≡ₚ c ∧ o = plain (RBool (has k c))
  | CGet k | CPeek k => c' ≡ₚ c ∧ o = plain (RVal (value_of k c))
  | CGetMut k f | CPeekMut k f => c' ≡ₚ upd k f c ∧ o = plain (RVal (value_of k c))
  | CRemove k => c' ≡ₚ del k c ∧ o = plain (RPair (find_key k c))
  | CReplace rs k v _ wl => ∃ es rs' b, inserts cap budget false rs c k v es rs' c' b ∧
      o = match b with
          | None => reply rs es rs' wl (RPair None) false
          | Some kv => Out (RPair (Some kv)) (LBegin rs :: (LHook <$> es)) false None
          end
  | CInsert rs k v wl => ∃ es rs', inserts cap budget true rs c k v es rs' c' None ∧
      o = reply rs es rs' wl RUnit false
  | CRetain f => c' ≡ₚ List.filter (λ p, f p.1 p.2) c ∧ o = plain RUnit
  | CClear => c' = [] ∧ o = plain RUnit
  | CDrain => c' = [] ∧ ∃ l, l ≡ₚ c ∧ o = plain (RItems l)
  | CReserve => c' ≡ₚ c ∧ o = plain RUnit
  | CGetOrInsert rs k w =>
      match value_of k c, w with
      | Some v, _ => c' ≡ₚ c ∧ o = plain (RVal (Some v))
      | None, None => c' ≡ₚ c ∧ o = Out RErr [] true None
      | None, Some v => ∃ kp es rs', keqb P k kp = true ∧ loads cap budget rs c kp v es rs' c' ∧
          o = reply rs es rs' false (RVal (value_of k c')) true
      end
  | CGetMutOrInsert rs k w f =>
      match value_of k c, w with
      | Some v, _ => c' ≡ₚ upd k f c ∧ o = plain (RVal (Some v))
      | None, None => c' ≡ₚ c ∧ o = Out RErr [] true None
      | None, Some v => ∃ kp es rs' c1, keqb P k kp = true ∧ loads cap budget rs c kp v es rs' c1 ∧
          c' ≡ₚ upd k f c1 ∧ o = reply rs es rs' false (RVal (value_of k c1)) true
      end
  | CRefOrGuard rs k g =>
      match value_of k c with
      | Some v => c' ≡ₚ c ∧ o = plain (RVal (Some v))
      | None => guards cap budget c rs k g o c'
      end
  | CMutOrGuard rs k f g =>
      match value_of k c with
      | Some v => c' ≡ₚ upd k f c ∧ o = plain (RVal (Some v))
      | None => guards cap budget c rs k g o c'
      end
  end.

(* Calls that, when the key is absent, start a load and do not complete it; and those whose
   pending entry is also found by later calls. *)
Definition abandons (m : cmd) : bool :=
  match m with
  | CGetOrInsert _ _ None | CGetMutOrInsert _ _ None _
  | CRefOrGuard _ _ (GDrop | GForget) | CMutOrGuard _ _ _ (GDrop | GForget) => true
  | _ => false
  end.
Definition strands (m : cmd) : bool :=
  match m with
  | CGetOrInsert _ _ None | CGetMutOrInsert _ _ None _
  | CRefOrGuard _ _ GForget | CMutOrGuard _ _ _ GForget => true
  | _ => false
  end.

(* When a call can exceed the 64-bit weight counters: the cached weight plus the new value's
   (before anything is evicted), or the weight after an in-place change, reaches 2^64. *)
Definition in_overflow (budget : N) c rs k v : Prop :=
  ∃ rs1 es v1, admission budget rs k v = (rs1, es, v1, false) ∧ (two64 ≤ wsum c + weight P k v1)%N.
Definition may_overflow (cap budget : N) c (m : cmd) : Prop :=
  match m with
  | CGetMut k f | CPeekMut k f => (two64 ≤ wsum (upd k f c))%N
  | CReplace rs k v _ _ | CInsert rs k v _ => in_overflow budget c rs k v
  | CGetOrInsert rs k (Some v) | CRefOrGuard rs k (GInsert v _) =>
      ∃ kp, keqb P k kp = true ∧ in_overflow budget c rs kp v
  | CGetMutOrInsert rs k w f =>
      (two64 ≤ wsum (upd k f c))%N ∨
      ∃ v kp, w = Some v ∧ keqb P k kp = true ∧
        (in_overflow budget c rs kp v ∨
         ∃ es rs' c1, loads cap budget rs c kp v es rs' c1 ∧ (two64 ≤ wsum (upd k f c1))%N)
  | CMutOrGuard rs k f g =>
      (two64 ≤ wsum (upd k f c))%N ∨
      ∃ v wl kp, g = GInsert v wl ∧ keqb P k kp = true ∧ in_overflow budget c rs kp v
  | _ => False
  end.
End api.
