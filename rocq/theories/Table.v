(* Parameters of the model (user code and hash table), and the model of hashbrown::HashTable
   as it is used by /repo/src/shard.rs. *)
From Verif Require Export Base.

(* The hash table: the multiset of (hash, token) buckets. hashbrown itself is an external
   crate and is not modelled beyond this interface. [tepoch] counts mutations, so that the
   oracles below may answer differently for two tables with the same buckets but another
   history (tombstones, growth, ...). *)
Record table := Table { tpairs : list (N * nat); tepoch : nat }.

(* Everything the cache is generic over (shard.rs:190-198, lib.rs:118-201), plus the oracles
   of the hash table. Keys are looked up by keys: the borrowed form Q of a key is assumed to
   hash and compare like the key, as the Equivalent/Borrow contract demands. *)
Record Params := {
  K : Type; V : Type; RS : Type;
  keqb : K → K → bool;                     (* Eq for Key, Equivalent *)
  hash : K → N;                            (* BuildHasher::hash_one *)
  weight : K → V → N;                      (* Weighter::weight, lib.rs:118-140 *)
  pinned : K → V → bool;                   (* Lifecycle::is_pinned, lib.rs:175-177 *)
  before_evict : RS → K → V → RS * V;      (* Lifecycle::before_evict, lib.rs:185-187 *)
  on_evict : RS → K → V → RS;              (* Lifecycle::on_evict, lib.rs:190 *)
  probe : table → N → list nat;            (* HashTable::iter_hash / find probe order *)
  titer : table → list nat;                (* HashTable::iter order *)
  grows : table → bool;                    (* does insert_unique rehash now? *)
  ptr_ids : bool;                          (* SharedPlaceholder::same_as: true = Arc::ptr_eq
                                              (sync_placeholder.rs:38-40), false = always equal
                                              (unsync.rs:502-504) *)
}.

(* What the documentation demands of the parameters. *)
Record Lawful (P : Params) : Prop := {
  keqb_refl : ∀ k, keqb P k k = true;
  keqb_sym : ∀ k k', keqb P k k' = true → keqb P k' k = true;
  keqb_trans : ∀ a b c, keqb P a b = true → keqb P b c = true → keqb P a c = true;
  hash_keqb : ∀ k k', keqb P k k' = true → hash P k = hash P k';
  probe_sound : ∀ T h t, t ∈ probe P T h → t ∈ (tpairs T).*2;
  probe_complete : ∀ T h t, (h, t) ∈ tpairs T → t ∈ probe P T h;
  titer_perm : ∀ T, titer P T ≡ₚ (tpairs T).*2;
}.

Section table.
Context (P : Params).

Definition tnew : table := Table [] 0.

(* HashTable::find(hash, eq) and find_entry(hash, eq): the first bucket of the probe sequence
   accepted by eq; eq may panic *)
Fixpoint scan (l : list nat) (eq : nat → res bool) : res (option nat) :=
  match l with
  | [] => Ok None
  | t :: r => let! b := eq t in if b then Ok (Some t) else scan r eq
  end.
Definition tfind (T : table) (h : N) (eq : nat → res bool) : res (option nat) :=
  scan (probe P T h) eq.

(* OccupiedEntry::remove on the bucket holding token t *)
Definition tremove (T : table) (t : nat) : table :=
  Table (filter (λ p, p.2 ≠ t) (tpairs T)) (S (tepoch T)).

(* rehash all buckets with the given hasher closure, which may panic *)
Fixpoint rehash (l : list (N * nat)) (hasher : nat → res N) : res (list (N * nat)) :=
  match l with
  | [] => Ok []
  | (_, t) :: r => let! h := hasher t in let! r' := rehash r hasher in Ok ((h, t) :: r')
  end.

(* HashTable::insert_unique(hash, t, hasher) *)
Definition tinsert (T : table) (h : N) (t : nat) (hasher : nat → res N) : res table :=
  let! ps := (if grows P T then rehash (tpairs T) hasher else Ok (tpairs T)) in
  Ok (Table ((h, t) :: ps) (S (tepoch T))).

(* HashTable::reserve *)
Definition treserve (T : table) (hasher : nat → res N) : res table :=
  let! ps := (if grows P T then rehash (tpairs T) hasher else Ok (tpairs T)) in
  Ok (Table ps (S (tepoch T))).

(* HashTable::clear *)
Definition tclear (T : table) : table := Table [] (S (tepoch T)).
End table.
