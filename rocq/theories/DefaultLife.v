(* The lifecycle hooks a cache uses when none are given. *)
From stdpp Require Import prelude list.
From Verif Require Export ConcPropSpec.

Section default_life.
Context (P : Params).

(* sync.rs:460-472 DefaultLifecycle of the sync cache, and the provided methods of Lifecycle, lib.rs:175-187:
   nothing is pinned, before_evict leaves the value alone, the request state is an Option<(Key, Val)>, begin_request
   (sync.rs:463-466) gives None and on_evict (sync.rs:468-471) overwrites it with the evicted item *)
Definition sync_default : Params := {|
  K := K P; V := V P; RS := option (K P * V P);
  keqb := keqb P; hash := hash P; weight := weight P;
  pinned := λ _ _, false;
  before_evict := λ rs _ v, (rs, v);
  on_evict := λ _ k v, Some (k, v);
  probe := probe P; titer := titer P; grows := grows P; ptr_ids := ptr_ids P |}.

(* unsync.rs:411-420 DefaultLifecycle of the unsync cache: the same, with a request state of type () *)
Definition unsync_default : Params := {|
  K := K P; V := V P; RS := unit;
  keqb := keqb P; hash := hash P; weight := weight P;
  pinned := λ _ _, false;
  before_evict := λ rs _ v, (rs, v);
  on_evict := λ _ _ _, tt;
  probe := probe P; titer := titer P; grows := grows P; ptr_ids := ptr_ids P |}.
End default_life.

(* ---- what goes into a shard and what comes out of it ---- *)
Section accounts.
Context {P : Params}.
Implicit Types h : list (sop P * sres P).
(* the items a critical section was given to store. lk: the keys the loads were started for *)
Definition goes_in (lk : N → option (K P)) (z : sop P * sres P) : contents P :=
  match z.1 with
  | OCmd (CInsert _ k v _) | OCmd (CReplace _ k v _ _) => [(k, v)]
  | OFill _ id v _ => from_option (λ k, [(k, v)]) [] (lk id)
  | _ => []
  end.
(* the items it reported to on_evict or handed to its caller *)
Definition comes_out (lk : N → option (K P)) (z : sop P * sres P) : contents P :=
  match z with
  | (_, SO o) => evicted (hooks_of o) ++ match o_ret o with RPair (Some p) => [p] | _ => [] end
  | (OFill _ id _ _, SStale v) => from_option (λ k, [(k, v)]) [] (lk id)
  | _ => []
  end.
Definition put_in h : contents P := concat (map (goes_in (load_key h)) h).
Definition got_out h : contents P := concat (map (comes_out (load_key h)) h).
(* clear and retain drop items without reporting them *)
Definition drops (z : sop P * sres P) : bool := match z.1 with OCmd CClear | OCmd (CRetain _) => true | _ => false end.
End accounts.
