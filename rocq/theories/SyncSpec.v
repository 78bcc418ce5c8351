(* Specification of one shard of the sync cache: its items, its pending loads, and what each
   critical section may do to them. Nothing here mentions slabs, rings or hash tables. *)
From Verif Require Export PropSpec Sync.

Section syncspec.
Context {P : Params}.
Notation K := (K P). Notation V := (V P). Notation RS := (RS P).
Notation contents := (contents P). Notation out := (out P).
Implicit Types (c : contents) (k : K) (v : V) (rs : RS) (pd : N → option K) (id : N).

(* The items, the keys of the pending loads (each load has its own identity), and the identity
   of the next load. *)
Record sst := SSt { ss_items : contents; ss_pend : N → option K; ss_next : N }.
Implicit Types (a : sst).

(* What happens to a shard:
   - OCmd m: a plain call;
   - OJoin k: somebody asks for the value of k or the right to load it;
   - OFill id: the party that loads id provides the value;
   - ODrop id: it gives up. *)
Inductive sop := OCmd (m : cmd P) | OJoin k | OFill rs id v (wl : bool) | ODrop id.
(* SHit v: the value is cached; SWait id: load id of this key is pending; SNew id: a new load was
   started; SStale v: the load was cancelled, the value is handed back; SGone *)
Inductive sres := SO (o : out) | SHit v | SWait id | SNew id | SStale v | SGone.

Definition pdel k pd : N → option K :=
  λ id, match pd id with Some k' => if keqb P k k' then None else Some k' | None => None end.
Definition pset id (o : option K) pd : N → option K := λ i, if decide (i = id) then o else pd i.
(* remove, clear and an insert that is not refused cancel the pending load of the key *)
Definition pend_after (budget : N) (m : cmd P) pd : N → option K :=
  match m with
  | CRemove k => pdel k pd
  | CInsert rs k v _ => if (admission budget rs k v).2 then pd else pdel k pd
  | CClear => λ _, None
  | _ => pd
  end.
Definition same_pend pd pd' : Prop := ∀ id, pd id = pd' id.

Definition sdoes (cap budget : N) a (x : sop) (r : sres) a' : Prop :=
  let '(SSt c pd n) := a in let '(SSt c' pd' n') := a' in
  match x, r with
  | OCmd m, SO o =>
      sync_cmd m = true ∧ does cap budget c m o c' ∧ same_pend pd' (pend_after budget m pd) ∧ n' = n
  | OJoin k, SHit v => value_of k c = Some v ∧ c' ≡ₚ c ∧ same_pend pd' pd ∧ n' = n
  | OJoin k, SWait id =>
      value_of k c = None ∧ (∃ k', pd id = Some k' ∧ keqb P k k' = true) ∧ c' ≡ₚ c ∧ same_pend pd' pd ∧ n' = n
  | OJoin k, SNew id =>
      value_of k c = None ∧ (∀ i k', pd i = Some k' → keqb P k k' = false) ∧ id = n ∧
      c' ≡ₚ c ∧ same_pend pd' (pset id (Some k) pd) ∧ n' = (n + 1)%N
  | OFill rs id v wl, SO o =>
      ∃ k es rs', pd id = Some k ∧ loads cap budget rs c k v es rs' c' ∧ o = reply rs es rs' wl RGuard false ∧
        same_pend pd' (pset id None pd) ∧ n' = n
  | OFill rs id v wl, SStale v' => pd id = None ∧ v' = v ∧ c' ≡ₚ c ∧ same_pend pd' pd ∧ n' = n
  | ODrop id, SGone => c' ≡ₚ c ∧ same_pend pd' (pset id None pd) ∧ n' = n
  | _, _ => False
  end.

(* [legal cap budget h a]: the shard went through h, in this order, each step as specified, from
   the empty shard to a *)
Inductive legal (cap budget : N) : list (sop * sres) → sst → Prop :=
  | lg_new : legal cap budget [] (SSt [] (λ _, None) 0)
  | lg_step h a x r a' : legal cap budget h a → sdoes cap budget a x r a' →
      legal cap budget (h ++ [(x, r)]) a'.

(* what the code did, in these terms *)
Definition op_of (x : sect P) : sop :=
  match x with
  | XCmd m => OCmd m | XJoin k => OJoin k | XFill rs p _ v wl => OFill rs (ph_id p) v wl | XDrop p => ODrop (ph_id p)
  end.
Definition res_of (r : xret P) : sres :=
  match r with
  | XO o => SO o | XHit v => SHit v | XWait p => SWait (ph_id p) | XNew p => SNew (ph_id p) | XStale v => SStale v | XGone => SGone
  end.

(* ---- the whole cache, used by one thread at a time ---- *)
(* a cache as built by the constructors: n shards *)
Definition sc_fresh (budget ghosts cap n : N) : scache P :=
  SCache (replicate (N.to_nat n) (sh_new budget ghosts cap)) (n - 1).
(* A history h of API calls on a new cache of 2^e shards returned os and left the cache c. *)
Definition s_history (budget ghosts cap e : N) (h : list (scmd P)) (os : list out) (c : scache P) : Prop :=
  Forall api h ∧ sc_run (sc_fresh budget ghosts cap (2 ^ e)) h = Ok (c, os).
(* all cached pairs *)
Definition sc_items (c : scache P) : contents := concat (sh_iter <$> sc_shards c).
(* the key of a call; None: the call concerns all shards *)
Definition s_key (m : scmd P) : option K :=
  match m with SKey k _ | SValueOrGuard _ k _ | SGetOrInsert _ k _ => Some k | SAll _ => None end.
(* the same call on a cache without shards *)
Definition as_cmd (m : scmd P) : cmd P :=
  match m with
  | SKey _ m | SAll m => m
  | SValueOrGuard rs k (SInsert v wl) => CRefOrGuard rs k (GInsert v wl)
  | SValueOrGuard rs k SDrop => CRefOrGuard rs k GDrop
  | SGetOrInsert rs k w => CGetOrInsert rs k w
  end.
(* What the call may return and do to the pairs c of a shard it concerns: what ApiSpec.v allows
   the cache without shards, except that get_or_insert_with returns the loaded value itself
   instead of looking it up again. *)
Definition s_does (cap budget : N) c (m : scmd P) (o : out) c' : Prop :=
  match m with
  | SGetOrInsert rs k (Some v) =>
      match value_of k c with
      | Some v0 => c' ≡ₚ c ∧ o = plain (RVal (Some v0))
      | None => ∃ es rs', loads cap budget rs c k v es rs' c' ∧ o = reply rs es rs' false (RVal (Some v)) true
      end
  | _ => does cap budget c (as_cmd m) o c'
  end.
(* the effects of a history, oldest first *)
Fixpoint s_past (h : list (scmd P)) (os : list out) : list (effect P) :=
  match h, os with m :: h, o :: os => effects (as_cmd m) o ++ s_past h os | _, _ => [] end.
End syncspec.
Arguments sst : clear implicits. Arguments sop : clear implicits. Arguments sres : clear implicits.
