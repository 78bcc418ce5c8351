(* Model of /repo/src/shard.rs: CacheShard, function by function. *)
From Verif Require Export Slab Table.

(* shard.rs:18 *)
Definition MAX_F : N := 2.

(* shard.rs:27-30 enum InsertStrategy *)
Inductive strategy := Insert | Replace (soft : bool).
Definition is_replace (st : strategy) : bool := match st with Replace _ => true | Insert => false end.
Definition is_soft (st : strategy) : bool := match st with Replace b => b | Insert => false end.

(* shard.rs:33-36 enum ResidentState *)
Inductive rstate := Hot | Cold.
Global Instance rstate_eq_dec : EqDecision rstate.
Proof. solve_decision. Defined.

(* shard.rs:20-25 SharedPlaceholder. [ph_id] is the identity of the allocation (Arc), fresh
   for every Plh::new; the waiter state behind the Arc is modelled in Conc.v. *)
Record plh := Plh { ph_hash : N; ph_idx : nat; ph_id : N }.

(* The accounting of one resident list: hot_head/weight_hot/num_hot or
   cold_head/weight_cold/num_cold (shard.rs:82-93). Grouping the three fields of each state
   is the only change with respect to the flat struct. *)
Record acct := Acct { a_head : option nat; a_weight : N; a_num : N }.

(* Calls of the user's hooks made by a request, oldest first (ghost state). *)
Inductive event (P : Params) :=
  | EvBefore (k : K P) (v v' : V P)   (* before_evict(k, &mut v), leaving v' *)
  | EvEvict (k : K P) (v : V P).      (* on_evict(k, v) *)
Arguments EvBefore {P}. Arguments EvEvict {P}.

(* lcs: L::RequestState, plus the ghost log of hook calls *)
Record lcs (P : Params) := Lcs { lrs : RS P; llog : list (event P) }.
Arguments Lcs {P}. Arguments lrs {P}. Arguments llog {P}.

Section shard.
Context {P : Params} {B : Build}.
Notation K := (K P). Notation V := (V P).

(* shard.rs:38-44 struct Resident; the AtomicU16 counter is an N *)
Record resident := Res { r_key : K; r_val : V; r_state : rstate; r_ref : N }.
(* shard.rs:58-63 struct Placeholder *)
Record placeh := Pla { p_key : K; p_hot : rstate; p_shared : plh }.
(* shard.rs:65-70 enum Entry *)
Inductive entry := Resident (r : resident) | Placeholder (p : placeh) | Ghost (h : N).

(* shard.rs:75-101 struct CacheShard; [sh_nph] is ghost state: the next placeholder identity *)
Record shard := Shard {
  sh_map : table;
  sh_ents : slab entry;
  sh_hot : acct;
  sh_cold : acct;
  sh_ghost_head : option nat;
  sh_target_hot : N;
  sh_capacity : N;
  sh_nnr : N;                 (* num_non_resident *)
  sh_cap_nr : N;              (* capacity_non_resident *)
  sh_hits : N;
  sh_misses : N;
  sh_nph : N;
}.
Implicit Types (s : shard) (l : lcs P).

(* field updates *)
Definition set_map s x := Shard x (sh_ents s) (sh_hot s) (sh_cold s) (sh_ghost_head s) (sh_target_hot s) (sh_capacity s) (sh_nnr s) (sh_cap_nr s) (sh_hits s) (sh_misses s) (sh_nph s).
Definition set_ents s x := Shard (sh_map s) x (sh_hot s) (sh_cold s) (sh_ghost_head s) (sh_target_hot s) (sh_capacity s) (sh_nnr s) (sh_cap_nr s) (sh_hits s) (sh_misses s) (sh_nph s).
Definition set_hot s x := Shard (sh_map s) (sh_ents s) x (sh_cold s) (sh_ghost_head s) (sh_target_hot s) (sh_capacity s) (sh_nnr s) (sh_cap_nr s) (sh_hits s) (sh_misses s) (sh_nph s).
Definition set_cold s x := Shard (sh_map s) (sh_ents s) (sh_hot s) x (sh_ghost_head s) (sh_target_hot s) (sh_capacity s) (sh_nnr s) (sh_cap_nr s) (sh_hits s) (sh_misses s) (sh_nph s).
Definition set_ghost_head s x := Shard (sh_map s) (sh_ents s) (sh_hot s) (sh_cold s) x (sh_target_hot s) (sh_capacity s) (sh_nnr s) (sh_cap_nr s) (sh_hits s) (sh_misses s) (sh_nph s).
Definition set_nnr s x := Shard (sh_map s) (sh_ents s) (sh_hot s) (sh_cold s) (sh_ghost_head s) (sh_target_hot s) (sh_capacity s) x (sh_cap_nr s) (sh_hits s) (sh_misses s) (sh_nph s).
Definition set_hits s x := Shard (sh_map s) (sh_ents s) (sh_hot s) (sh_cold s) (sh_ghost_head s) (sh_target_hot s) (sh_capacity s) (sh_nnr s) (sh_cap_nr s) x (sh_misses s) (sh_nph s).
Definition set_misses s x := Shard (sh_map s) (sh_ents s) (sh_hot s) (sh_cold s) (sh_ghost_head s) (sh_target_hot s) (sh_capacity s) (sh_nnr s) (sh_cap_nr s) (sh_hits s) x (sh_nph s).
Definition set_nph s x := Shard (sh_map s) (sh_ents s) (sh_hot s) (sh_cold s) (sh_ghost_head s) (sh_target_hot s) (sh_capacity s) (sh_nnr s) (sh_cap_nr s) (sh_hits s) (sh_misses s) x.
Definition sh_acct s (st : rstate) : acct := match st with Hot => sh_hot s | Cold => sh_cold s end.
Definition set_acct s (st : rstate) (a : acct) : shard :=
  match st with Hot => set_hot s a | Cold => set_cold s a end.
Definition set_head s (st : rstate) (h : option nat) : shard :=
  set_acct s st (Acct h (a_weight (sh_acct s st)) (a_num (sh_acct s st))).
(* self.weight_hot -= w (resp. cold); underflow would be a debug panic *)
Definition sub_weight s (st : rstate) (w : N) : res shard :=
  let! w' := wsub (a_weight (sh_acct s st)) w in
  Ok (set_acct s st (Acct (a_head (sh_acct s st)) w' (a_num (sh_acct s st)))).
(* self.weight_hot += w (resp. cold) *)
Definition add_weight s (st : rstate) (w : N) : res shard :=
  let! w' := wadd (a_weight (sh_acct s st)) w in
  Ok (set_acct s st (Acct (a_head (sh_acct s st)) w' (a_num (sh_acct s st)))).
(* self.num_hot -= 1 (resp. cold) *)
Definition dec_num s (st : rstate) : res shard :=
  let! n := wsub (a_num (sh_acct s st)) 1 in
  Ok (set_acct s st (Acct (a_head (sh_acct s st)) (a_weight (sh_acct s st)) n)).
(* self.num_hot += 1 (resp. cold); usize, bounded by the number of slots, never overflows *)
Definition inc_num s (st : rstate) : shard :=
  set_acct s st (Acct (a_head (sh_acct s st)) (a_weight (sh_acct s st)) (a_num (sh_acct s st) + 1)).
Definition dec_nnr s : res shard := let! n := wsub (sh_nnr s) 1 in Ok (set_nnr s n).
Definition set_key_ref (r : resident) (x : N) : resident := Res (r_key r) (r_val r) (r_state r) x.
Definition set_rval (r : resident) (v : V) : resident := Res (r_key r) v (r_state r) (r_ref r).
Definition set_rstate (r : resident) (st : rstate) : resident := Res (r_key r) (r_val r) st (r_ref r).
Definition rweight (r : resident) : N := weight P (r_key r) (r_val r).
Definition rpinned (r : resident) : bool := pinned P (r_key r) (r_val r).

(* record_hit!/record_miss! (shard.rs:133-173), feature "stats"; u64 counters, modelled
   without wrap-around *)
Definition record_hit s := set_hits s (sh_hits s + 1)%N.
Definition record_miss s := set_misses s (sh_misses s + 1)%N.

(* self.lifecycle.before_evict(lcs, &k, &mut v) *)
Definition call_before l (k : K) (v : V) : lcs P * V :=
  let '(rs', v') := before_evict P (lrs l) k v in
  (Lcs rs' (llog l ++ [EvBefore k v v']), v').
(* self.lifecycle.on_evict(lcs, k, v) *)
Definition call_evict l (k : K) (v : V) : lcs P :=
  Lcs (on_evict P (lrs l) k v) (llog l ++ [EvEvict k v]).

(* self.entries.get(idx).unwrap(), the entry only *)
Definition entry_at s (t : nat) : res entry :=
  let! (e, _) := unwrap (slab_get (sh_ents s) t) in Ok e.
Definition set_entry s (t : nat) (e : entry) : shard := set_ents s (slab_set (sh_ents s) t e).

(* shared.same_as(placeholder) *)
Definition same_as (a b : plh) : bool := if ptr_ids P then bool_decide (ph_id a = ph_id b) else true.

(* the hasher closures at shard.rs:323-332 and shard.rs:839-848 *)
Definition hash_of_entry (e : entry) : N :=
  match e with
  | Resident r => hash P (r_key r)
  | Placeholder p => hash P (p_key p)
  | Ghost h => h
  end.
Definition hasher s (t : nat) : res N := let! e := entry_at s t in Ok (hash_of_entry e).

(* shard.rs:837-849 map_insert *)
Definition map_insert s (h : N) (t : nat) : res shard :=
  let! m := tinsert P (sh_map s) h t (hasher s) in Ok (set_map s m).

(* shard.rs:851-859 map_remove; the debug build panics when the token is not found *)
Definition map_remove s (h : N) (t : nat) : res shard :=
  let! o := tfind P (sh_map s) h (λ i, Ok (bool_decide (i = t))) in
  match o with
  | Some i => Ok (set_map s (tremove (sh_map s) i))
  | None => if is_debug then Fail Panic else Ok s
  end.

(* shard.rs:176-186 remove_placeholder *)
Definition remove_placeholder s (p : plh) : res shard :=
  let! o := tfind P (sh_map s) (ph_hash p) (λ i,
    if bool_decide (i ≠ ph_idx p) then Ok false
    else let! e := entry_at s i in
         match e with Placeholder q => Ok (same_as (p_shared q) p) | _ => Ok false end) in
  match o with
  | Some i => Ok (set_map s (tremove (sh_map s) i))
  | None => Ok s
  end.

(* shard.rs:188-206 cold_change_weight *)
Definition cold_change_weight s (idx : nat) (old_weight new_weight : N) : res shard :=
  match slab_get (sh_ents s) idx with
  | Some (Resident r, _) =>
      let st := r_state r in
      let! s := sub_weight s st old_weight in
      let! s := add_weight s st new_weight in
      if (old_weight =? 0)%N && negb (new_weight =? 0)%N then
        let! (e, h) := slab_link (sh_ents s) idx (a_head (sh_acct s st)) in
        Ok (set_head (set_ents s e) st (Some h))
      else if negb (old_weight =? 0)%N && (new_weight =? 0)%N then
        let! (e, h) := slab_unlink (sh_ents s) idx in
        Ok (set_head (set_ents s e) st h)
      else Ok s
  | _ => Fail Panic
  end.

(* shard.rs:218-251 new. The two f64 products (shard.rs:227-228) are computed in Options.v and
   passed here as [target_hot] and [cap_nr]. *)
Definition sh_new (target_hot cap_nr capacity : N) : shard :=
  Shard tnew slab_new (Acct None 0 0) (Acct None 0 0) None target_hot capacity 0 cap_nr 0 0 0.

(* shard.rs:318-333 reserve: only the rehash of the table is observable *)
Definition sh_reserve s : res shard :=
  let! m := treserve P (sh_map s) (hasher s) in Ok (set_map s m).

(* shard.rs:362-368 weight, len; capacity (shard.rs:370-372) is the field sh_capacity *)
Definition sh_weight s : res N := wadd (a_weight (sh_hot s)) (a_weight (sh_cold s)).
Definition sh_len s : N := a_num (sh_hot s) + a_num (sh_cold s).

Definition resident_kv (e : entry) : option (K * V) :=
  match e with Resident r => Some (r_key r, r_val r) | _ => None end.

(* shard.rs:388-402 drain: the shard is emptied at once, the returned iterator yields the items *)
Definition sh_drain s : shard * list (K * V) :=
  let '(e, its) := slab_drain (sh_ents s) in
  (Shard (tclear (sh_map s)) e (Acct None 0 0) (Acct None 0 0) None
     (sh_target_hot s) (sh_capacity s) 0 (sh_cap_nr s) (sh_hits s) (sh_misses s) (sh_nph s),
   omap resident_kv its).
(* shard.rs:384-386 clear *)
Definition sh_clear s : shard := fst (sh_drain s).

(* shard.rs:404-409 iter *)
Definition sh_iter s : list (K * V) := omap resident_kv (slab_iter (sh_ents s)).

(* shard.rs:427-450 search *)
Fixpoint search_loop s (h : N) (k : K) (l : list nat) (hash_match : option nat) : res (option nat) :=
  match l with
  | [] => Ok hash_match
  | idx :: l' =>
      let! e := entry_at s idx in
      match e with
      | Resident r => if keqb P k (r_key r) then Ok (Some idx) else search_loop s h k l' hash_match
      | Placeholder p => if keqb P k (p_key p) then Ok (Some idx) else search_loop s h k l' hash_match
      | Ghost g => search_loop s h k l' (if (g =? h)%N then Some idx else hash_match)
      end
  end.
Definition search s (h : N) (k : K) : res (option nat) :=
  search_loop s h k (probe P (sh_map s) h) None.

(* shard.rs:452-474 search_resident: find with a closure that also writes the MaybeUninit;
   the accepted bucket is the one whose resident was written last *)
Definition res_match s (k : K) (i : nat) : res bool :=
  let! e := entry_at s i in
  match e with Resident r => Ok (keqb P k (r_key r)) | _ => Ok false end.
Definition search_resident s (h : N) (k : K) : res (option (nat * resident)) :=
  let! o := tfind P (sh_map s) h (res_match s k) in
  match o with
  | None => Ok None
  | Some i =>
      let! e := entry_at s i in
      match e with Resident r => Ok (Some (i, r)) | _ => Fail UB end
  end.

(* shard.rs:476-486 contains *)
Definition sh_contains s (h : N) (k : K) : res bool :=
  let! o := tfind P (sh_map s) h (res_match s k) in Ok (bool_decide (is_Some o)).

(* shard.rs:488-506 get. Sequential: the load and fetch_add of the counter are not
   interleaved with another thread here; see Conc.v and C40 for arbitrary counters. *)
Definition sh_get s (h : N) (k : K) : res (shard * option V) :=
  let! o := search_resident s h k in
  match o with
  | Some (i, r) =>
      let r' := if (r_ref r <? MAX_F)%N then set_key_ref r (r_ref r + 1) else r in
      Ok (record_hit (set_entry s i (Resident r')), Some (r_val r))
  | None => Ok (record_miss s, None)
  end.

(* shard.rs:508-530 get_mut: returns the token and old weight held by the RefMut *)
Definition sh_get_mut s (h : N) (k : K) : res (shard * option (nat * N)) :=
  let! o := search_resident s h k in
  match o with
  | None => Ok (record_miss s, None)
  | Some (idx, _) =>
      let! e := entry_at s idx in
      match e with
      | Resident r =>
          let r' := if (r_ref r <? MAX_F)%N then set_key_ref r (r_ref r + 1) else r in
          Ok (record_hit (set_entry s idx (Resident r')), Some (idx, rweight r))
      | _ => Fail Panic
      end
  end.

(* shard.rs:532-539 peek_token *)
Definition peek_token s (t : nat) : option V :=
  match slab_get (sh_ents s) t with
  | Some (Resident r, _) => Some (r_val r)
  | _ => None
  end.
(* shard.rs:541-553 peek_token_mut *)
Definition peek_token_mut s (t : nat) : option (nat * N) :=
  match slab_get (sh_ents s) t with
  | Some (Resident r, _) => Some (t, rweight r)
  | _ => None
  end.
(* shard.rs:555-561 peek *)
Definition sh_peek s (h : N) (k : K) : res (option V) :=
  let! o := search_resident s h k in
  Ok (match o with Some (_, r) => Some (r_val r) | None => None end).
(* shard.rs:563-569 peek_mut *)
Definition sh_peek_mut s (h : N) (k : K) : res (option (nat * N)) :=
  let! o := search_resident s h k in
  Ok (match o with Some (i, _) => peek_token_mut s i | None => None end).

(* shard.rs:1094-1106 RefMut::value_mut: writing v through the reference *)
Definition refmut_write s (idx : nat) (f : V → V) : res shard :=
  match slab_get (sh_ents s) idx with
  | Some (Resident r, _) => Ok (set_entry s idx (Resident (set_rval r (f (r_val r)))))
  | _ => Fail UB
  end.
(* shard.rs:1080-1092 RefMut::pair and shard.rs:1109-1121 Drop for RefMut *)
Definition refmut_drop s (idx : nat) (old_weight : N) : res shard :=
  match slab_get (sh_ents s) idx with
  | Some (Resident r, _) =>
      let new_weight := rweight r in
      if negb (old_weight =? new_weight)%N then cold_change_weight s idx old_weight new_weight else Ok s
  | _ => Fail UB
  end.

(* shard.rs:581-614 remove_internal *)
Definition remove_internal s (h : N) (idx : nat) : res (shard * option (K * V)) :=
  let! s := map_remove s h idx in
  let! (es, o) := slab_remove (sh_ents s) idx in
  let! (e, next) := unwrap o in
  let s := set_ents s es in
  match e with
  | Resident r =>
      let w := rweight r in
      let st := r_state r in
      let! s := dec_num s st in
      let! s := sub_weight s st w in
      let s := if bool_decide (a_head (sh_acct s st) = Some idx) then set_head s st next else s in
      Ok (s, Some (r_key r, r_val r))
  | Ghost _ =>
      let! s := dec_nnr s in
      let s := if bool_decide (sh_ghost_head s = Some idx) then set_ghost_head s next else s in
      Ok (s, None)
  | Placeholder _ => Ok (s, None)
  end.

(* shard.rs:571-579 remove *)
Definition sh_remove s (h : N) (k : K) : res (shard * option (K * V)) :=
  let! o := search s h k in
  match o with
  | None => Ok (s, None)
  | Some idx => remove_internal s h idx
  end.

(* shard.rs:335-360 retain: first collect the rejected tokens in the iteration order of the
   table, then remove them one by one *)
Fixpoint retain_collect s (f : K → V → bool) (l : list nat) : list (nat * N) :=
  match l with
  | [] => []
  | idx :: l' =>
      match slab_get (sh_ents s) idx with
      | Some (Resident r, _) =>
          if negb (f (r_key r) (r_val r)) then (idx, hash P (r_key r)) :: retain_collect s f l'
          else retain_collect s f l'
      | _ => retain_collect s f l'
      end
  end.
Fixpoint retain_remove s (l : list (nat * N)) : res shard :=
  match l with
  | [] => Ok s
  | (idx, h) :: l' => let! (s, _) := remove_internal s h idx in retain_remove s l'
  end.
Definition sh_retain s (f : K → V → bool) : res shard :=
  retain_remove s (retain_collect s f (titer P (sh_map s))).

(* shard.rs:725-737 advance_ghost *)
Definition advance_ghost s : res shard :=
  let! _ := assert (negb (sh_nnr s =? 0)%N) in
  let! idx := unwrap (sh_ghost_head s) in
  let! e := entry_at s idx in
  match e with
  | Ghost h =>
      let! s := dec_nnr s in
      let! s := map_remove s h idx in
      let! (es, o) := slab_remove (sh_ents s) idx in
      let! (_, next) := unwrap o in
      Ok (set_ghost_head (set_ents s es) next)
  | _ => Fail Panic
  end.

(* shard.rs:705-721: the part of advance_hot that evicts the unpinned, unreferenced resident r
   at token idx (the rest of the loop body is in advance_hot_loop) *)
Definition hot_evict s l (idx : nat) (r : resident) : res (shard * lcs P * bool) :=
  let! s := sub_weight s Hot (rweight r) in
  let '(l, v') := call_before l (r_key r) (r_val r) in
  let r' := set_rval r v' in
  let s := set_entry s idx (Resident r') in
  if (rweight r' =? 0)%N then
    let! (es, h) := slab_unlink (sh_ents s) idx in
    Ok (set_head (set_ents s es) Hot h, l, true)
  else
    let! s := dec_num s Hot in
    let! (es, o) := slab_remove (sh_ents s) idx in
    match o with
    | Some (Resident ev, next) =>
        let s := set_head (set_ents s es) Hot next in
        let l := call_evict l (r_key ev) (r_val ev) in
        let! s := map_remove s (hash P (r_key r')) idx in
        Ok (s, l, true)
    | _ => Fail UB
    end.

(* shard.rs:676-723 advance_hot: the loop, from token [idx] with [unpinned] seen so far;
   one unit of fuel per visited entry *)
Fixpoint advance_hot_loop (fuel : nat) s l (idx : nat) (unpinned : N) : res (shard * lcs P * bool) :=
  match fuel with
  | 0 => Fail NoFuel
  | S fuel =>
      let! (e, next) := unwrap (slab_get (sh_ents s) idx) in
      match e with
      | Resident r =>
          let! _ := assert (bool_decide (r_state r = Hot)) in
          if rpinned r then
            let s := set_entry s idx (Resident (set_key_ref r (N.min (r_ref r) MAX_F - 1))) in
            if (unpinned =? 0)%N && bool_decide (Some next = a_head (sh_hot s)) then Ok (s, l, false)
            else advance_hot_loop fuel s l next unpinned
          else
            let unpinned := (unpinned + 1)%N in
            if negb (r_ref r =? 0)%N then
              let s := set_entry s idx (Resident (set_key_ref r (N.min (r_ref r) MAX_F - 1))) in
              advance_hot_loop fuel s l next unpinned
            else hot_evict s l idx r
      | _ => Fail Panic
      end
  end.
Definition advance_hot s l : res (shard * lcs P * bool) :=
  match a_head (sh_hot s) with
  | None => Ok (s, l, false)
  | Some idx => advance_hot_loop (3 * length (ents (sh_ents s)) + 1) s l idx 0
  end.

(* shard.rs:639 while self.weight_hot > self.weight_target_hot && self.advance_hot(lcs) {} *)
Fixpoint trim_hot (fuel : nat) s l : res (shard * lcs P) :=
  match fuel with
  | 0 => Fail NoFuel
  | S fuel =>
      if (sh_target_hot s <? a_weight (sh_hot s))%N then
        let! (s, l, b) := advance_hot s l in
        if b : bool then trim_hot fuel s l else Ok (s, l)
      else Ok (s, l)
  end.

(* shard.rs:629-641: the part of advance_cold that promotes the referenced resident r at idx *)
Definition cold_promote s l (idx : nat) (r : resident) : res (shard * lcs P * bool) :=
  let r' := set_rstate (set_key_ref r (r_ref r - 1)) Hot in
  let s := set_entry s idx (Resident r') in
  let w := rweight r' in
  let! s := add_weight s Hot w in
  let! s := sub_weight s Cold w in
  let s := inc_num s Hot in
  let! s := dec_num s Cold in
  let! (es, h) := slab_unlink (sh_ents s) idx in
  let s := set_head (set_ents s es) Cold h in
  let! (es, h) := slab_link (sh_ents s) idx (a_head (sh_hot s)) in
  let s := set_head (set_ents s es) Hot (Some h) in
  let! (s, l) := trim_hot (length (ents (sh_ents s)) + 1) s l in
  Ok (s, l, true).

(* shard.rs:651-672: the part of advance_cold that evicts the unpinned, unreferenced resident r
   at idx, leaving a ghost *)
Definition cold_evict s l (idx : nat) (r : resident) : res (shard * lcs P * bool) :=
  let! s := sub_weight s Cold (rweight r) in
  let '(l, v') := call_before l (r_key r) (r_val r) in
  let r' := set_rval r v' in
  let s := set_entry s idx (Resident r') in
  if (rweight r' =? 0)%N then
    let! (es, h) := slab_unlink (sh_ents s) idx in
    Ok (set_head (set_ents s es) Cold h, l, true)
  else
    let s := set_entry s idx (Ghost (hash P (r_key r'))) in
    let! (es, h) := slab_unlink (sh_ents s) idx in
    let s := set_head (set_ents s es) Cold h in
    let! (es, h) := slab_link (sh_ents s) idx (sh_ghost_head s) in
    let s := set_ghost_head (set_ents s es) (Some h) in
    let! s := dec_num s Cold in
    let s := set_nnr s (sh_nnr s + 1) in
    let! s := (if (sh_cap_nr s <? sh_nnr s)%N then advance_ghost s else Ok s) in
    let l := call_evict l (r_key r') (r_val r') in
    Ok (s, l, true).

(* shard.rs:616-674 advance_cold: the loop, from token [idx] *)
Fixpoint advance_cold_loop (fuel : nat) s l (idx : nat) : res (shard * lcs P * bool) :=
  match fuel with
  | 0 => Fail NoFuel
  | S fuel =>
      let! (e, next) := unwrap (slab_get (sh_ents s) idx) in
      match e with
      | Resident r =>
          let! _ := assert (bool_decide (r_state r = Cold)) in
          if negb (r_ref r =? 0)%N then cold_promote s l idx r
          else if rpinned r then
            if bool_decide (Some next = a_head (sh_cold s)) then advance_hot s l
            else advance_cold_loop fuel s l next
          else cold_evict s l idx r
      | _ => Fail Panic
      end
  end.
Definition advance_cold s l : res (shard * lcs P * bool) :=
  match a_head (sh_cold s) with
  | None => advance_hot s l
  | Some idx => advance_cold_loop (length (ents (sh_ents s)) + 1) s l idx
  end.

(* while self.weight_hot + self.weight_cold + extra > self.weight_capacity
     && self.advance_cold(lcs) {}
   with extra = weight at shard.rs:964-966, extra = 0 at shard.rs:833 and shard.rs:915-917 *)
Fixpoint evict_loop (fuel : nat) s l (extra : N) : res (shard * lcs P) :=
  match fuel with
  | 0 => Fail NoFuel
  | S fuel =>
      let! a := wadd (a_weight (sh_hot s)) (a_weight (sh_cold s)) in
      let! a := wadd a extra in
      if (sh_capacity s <? a)%N then
        let! (s, l, b) := advance_cold s l in
        if b : bool then evict_loop fuel s l extra else Ok (s, l)
      else Ok (s, l)
  end.
Definition evict_until s l (extra : N) : res (shard * lcs P) :=
  evict_loop (2 * length (ents (sh_ents s)) + 1) s l extra.

(* link an entry at the back of the list of state st: *list_head = Some(self.entries.link(..)) *)
Definition link_back s (st : rstate) (idx : nat) : res shard :=
  let! (es, h) := slab_link (sh_ents s) idx (a_head (sh_acct s st)) in
  Ok (set_head (set_ents s es) st (Some h)).

(* shard.rs:739-835 insert_existing; Err is [Some (key, value)] *)
Definition insert_existing s l (idx : nat) (key : K) (value : V) (w : N) (strat : strategy)
  : res (shard * lcs P * option (K * V)) :=
  let! e := entry_at s idx in
  let decide_enter : option (rstate * N) :=
    match e with
    | Resident r =>
        Some (r_state r, N.min (r_ref r + (if is_soft strat then 0 else 1)) MAX_F)
    | _ =>
        if is_replace strat then None
        else match e with
             | Ghost _ => Some (Hot, 0%N)
             | Placeholder p => Some (p_hot p, 1%N)
             | Resident _ => None
             end
    end in
  match decide_enter with
  | None => Ok (s, l, Some (key, value))
  | Some (enter_state, referenced) =>
      let s := set_entry s idx (Resident (Res key value enter_state referenced)) in
      let! (s, l) :=
        match e with
        | Resident ev =>
            let! _ := assert (bool_decide (r_state ev = enter_state)) in
            let evicted_weight := rweight ev in
            let! s := sub_weight s enter_state evicted_weight in
            let! s := add_weight s enter_state w in
            let! s :=
              (if (evicted_weight =? 0)%N && negb (w =? 0)%N then link_back s enter_state idx
               else if negb (evicted_weight =? 0)%N && (w =? 0)%N then
                 let! (es, h) := slab_unlink (sh_ents s) idx in
                 Ok (set_head (set_ents s es) enter_state h)
               else Ok s) in
            Ok (s, call_evict l (r_key ev) (r_val ev))
        | Ghost _ =>
            let! s := add_weight s Hot w in
            let s := inc_num s Hot in
            let! s := dec_nnr s in
            let! (es, next_ghost) := slab_unlink (sh_ents s) idx in
            let s := set_ents s es in
            let s := if bool_decide (sh_ghost_head s = Some idx) then set_ghost_head s next_ghost else s in
            let! s := (if negb (w =? 0)%N then link_back s Hot idx else Ok s) in
            Ok (s, l)
        | Placeholder _ =>
            let s := inc_num s enter_state in
            let! s := add_weight s enter_state w in
            let! s := (if negb (w =? 0)%N then link_back s enter_state idx else Ok s) in
            Ok (s, l)
        end in
      let! (s, l) := evict_until s l 0 in
      Ok (s, l, None)
  end.

(* shard.rs:990-1010 handle_insert_overweight *)
Definition handle_insert_overweight s l (h : N) (key : K) (value : V) (strat : strategy)
  : res (shard * lcs P * option (K * V)) :=
  let! o := search_resident s h key in
  let! (s, l) :=
    match o with
    | Some (idx, _) =>
        let! (s, o) := remove_internal s h idx in
        Ok (s, match o with Some (ek, ev) => call_evict l ek ev | None => l end)
    | None => Ok (s, l)
    end in
  if is_replace strat then Ok (s, l, Some (key, value))
  else Ok (s, call_evict l key value, None).

(* shard.rs:937-988 insert *)
Definition sh_insert s l (h : N) (key : K) (value : V) (strat : strategy)
  : res (shard * lcs P * option (K * V)) :=
  let w := weight P key value in
  let '(l, value, w, over) :=
    if (sh_target_hot s <? w)%N && negb (pinned P key value) then
      let '(l, value) := call_before l key value in
      let w := weight P key value in
      (l, value, w, (sh_target_hot s <? w)%N)
    else (l, value, w, false) in
  if over then handle_insert_overweight s l h key value strat
  else
    let! o := search s h key in
    match o with
    | Some idx => insert_existing s l idx key value w strat
    | None =>
        if is_replace strat then Ok (s, l, Some (key, value))
        else
          let! hw := wadd (a_weight (sh_hot s)) w in
          let enter_hot := (hw <=? sh_target_hot s)%N in
          let! (s, l) := evict_until s l w in
          let st := if enter_hot then Hot else Cold in
          let s := inc_num s st in
          let! s := add_weight s st w in
          let! (es, idx) := slab_insert (sh_ents s) (Resident (Res key value st 0)) in
          let s := set_ents s es in
          let! s := (if negb (w =? 0)%N then link_back s st idx else Ok s) in
          let! s := map_insert s h idx in
          Ok (s, l, None)
    end.

(* shard.rs:923-935 handle_overweight_replace_placeholder *)
Definition handle_overweight_replace_placeholder s l (p : plh) (key : K) (value : V)
  : res (shard * lcs P) :=
  let! (es, _) := slab_remove (sh_ents s) (ph_idx p) in
  let! s := map_remove (set_ents s es) (ph_hash p) (ph_idx p) in
  Ok (s, call_evict l key value).

(* shard.rs:861-921 replace_placeholder; Err is [Some value] *)
Definition replace_placeholder s l (p : plh) (referenced : bool) (value : V)
  : res (shard * lcs P * option V) :=
  match slab_get (sh_ents s) (ph_idx p) with
  | Some (Placeholder q, _) =>
      if same_as (p_shared q) p then
        let s := set_entry s (ph_idx p) (Ghost 0) in
        let key := p_key q in
        let w := weight P key value in
        let '(l, value, w, over) :=
          if (sh_target_hot s <? w)%N && negb (pinned P key value) then
            let '(l, value) := call_before l key value in
            let w := weight P key value in
            (l, value, w, (sh_target_hot s <? w)%N)
          else (l, value, w, false) in
        if over then
          let! (s, l) := handle_overweight_replace_placeholder s l p key value in
          Ok (s, l, None)
        else
          let! a := wadd (a_weight (sh_hot s)) (a_weight (sh_cold s)) in
          let! a := wadd a w in
          let st := if (a <=? sh_capacity s)%N then Hot else p_hot q in
          let s := set_entry s (ph_idx p)
                     (Resident (Res key value st (if referenced then 1 else 0))) in
          let s := inc_num s st in
          let! s := add_weight s st w in
          if negb (w =? 0)%N then
            let! s := link_back s st (ph_idx p) in
            let! (s, l) := evict_until s l 0 in
            Ok (s, l, None)
          else Ok (s, l, None)
      else Ok (s, l, Some value)
  | _ => Ok (s, l, Some value)
  end.

(* shard.rs:1012-1068 upsert_placeholder: [inl (token, value)] for Ok, [inr (plh, is_new)] for Err *)
Definition upsert_placeholder s (h : N) (k : K) : res (shard * ((nat * V) + (plh * bool))) :=
  let! o := search s h k in
  match o with
  | Some idx =>
      let! e := entry_at s idx in
      match e with
      | Resident r =>
          let r' := if (r_ref r <? MAX_F)%N then set_key_ref r (r_ref r + 1) else r in
          Ok (record_hit (set_entry s idx (Resident r')), inl (idx, r_val r))
      | Placeholder p => Ok (record_hit s, inr (p_shared p, false))
      | Ghost _ =>
          let shared := Plh h idx (sh_nph s) in
          let s := set_nph s (sh_nph s + 1) in
          let s := set_entry s idx (Placeholder (Pla k Hot shared)) in
          let! s := dec_nnr s in
          let! (es, next) := slab_unlink (sh_ents s) idx in
          let s := set_ents s es in
          let s := if bool_decide (sh_ghost_head s = Some idx) then set_ghost_head s next else s in
          Ok (record_miss s, inr (shared, true))
      end
  | None =>
      let idx := next_free (sh_ents s) in
      let shared := Plh h idx (sh_nph s) in
      let s := set_nph s (sh_nph s + 1) in
      let! (es, idx_) := slab_insert (sh_ents s) (Placeholder (Pla k Cold shared)) in
      let! _ := assert (bool_decide (idx = idx_)) in
      let! s := map_insert (set_ents s es) h idx in
      Ok (record_miss s, inr (shared, true))
  end.

End shard.
Arguments shard : clear implicits.
Arguments entry : clear implicits.
Arguments resident : clear implicits.
Arguments placeh : clear implicits.
