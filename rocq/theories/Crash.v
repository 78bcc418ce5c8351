(* Panics in user code. Every function of Shard.v and Unsync.v that calls user code is repeated
   here, with the points at which it does. A point records the state of the cache at that time:
   this is the state that remains when the user code panics there and the caller catches the
   panic (&mut self is not poisoned, and the code has no clean-up of its own but for the Guard,
   see [unwinding]). CrashErase.v shows that with the points left out the functions are those of
   Shard.v and Unsync.v.

   Not covered: panics in the Drop of keys, values or request states, and in the code that holds
   a RefMut. The latter unwinds through RefMut::drop, as a normal use of the RefMut does. *)
From Verif Require Export Unsync.

(* the calls of user code *)
Inductive point :=
  | PHash             (* Hash of the key passed to the call, unsync.rs *)
  | PEq               (* Equivalent, in contains, search, search_resident *)
  | POwned            (* ToOwned in upsert_placeholder, shard.rs:1043, 1058 *)
  | PLook             (* Weighter in get_mut, shard.rs:524, and peek_token_mut, shard.rs:544 *)
  | PRefDrop          (* Weighter in RefMut::drop, shard.rs:1115 *)
  | PRemove           (* Weighter in remove_internal, shard.rs:587 *)
  | PRetain           (* the predicate of retain, and the hash of a rejected key, shard.rs:345-346 *)
  | PReserveGrow      (* Hash of a cached key while reserve moves the table, shard.rs:323 *)
  | PReserveInPlace   (* the same while it is rehashed in place *)
  | PInsertGrow       (* Hash of a cached key in map_insert called by insert, shard.rs:986 *)
  | PInsertInPlace
  | PUpsertGrow       (* Hash of a cached key in map_insert called by upsert_placeholder, shard.rs:1063 *)
  | PUpsertInPlace
  | PPinned           (* is_pinned of a cached item, shard.rs:643, 689 *)
  | PWeigh            (* Weighter on the item about to be evicted, shard.rs:651, 705 *)
  | PBefore           (* before_evict of a cached item, shard.rs:653, 707 *)
  | PReweigh          (* Weighter on what before_evict left, shard.rs:654, 708 *)
  | PEvHash           (* Hash of the evicted key, shard.rs:658, 712 *)
  | PColdEvict        (* on_evict in advance_cold, shard.rs:671 *)
  | PHotEvict         (* on_evict in advance_hot, shard.rs:718 *)
  | PPromote          (* Weighter on the promoted item, shard.rs:631 *)
  | PNew              (* Weighter, is_pinned, before_evict on the new value in insert, shard.rs:945-949 *)
  | PFill             (* the same in replace_placeholder, shard.rs:883-887 *)
  | PReplaced         (* Weighter on the replaced value in insert_existing, shard.rs:788 *)
  | PReplacedEvict    (* on_evict of the replaced value, shard.rs:803 *)
  | PRefused          (* on_evict of a refused value or what it replaced, shard.rs:933, 1002, 1008 *)
  | PLoader           (* the closure of get_*or_insert_with *)
  | PBegin            (* begin_request *)
  | PEnd.             (* end_request *)

Section crash.
Context {P : Params} {B : Build}.
Notation K := (K P). Notation V := (V P). Notation RS := (RS P).
Notation shard := (shard P). Notation resident := (resident P). Notation entry := (entry P).
Implicit Types (s : shard) (l : lcs P) (k : K) (v : V) (rs : RS).

(* a computation, and the points it passes *)
Definition M (A : Type) : Type := list (point * shard) * res A.
Definition mbind {A C} (m : M A) (f : A → M C) : M C :=
  match m.2 with Ok a => let x := f a in (m.1 ++ x.1, x.2) | Fail e => (m.1, Fail e) end.
Definition lift {A} (r : res A) : M A := ([], r).
Definition pt (p : point) s : M () := ([(p, s)], Ok ()).
Notation "'let*' x := m 'in' k" := (mbind m (λ x, k))
  (at level 200, x pattern, m at level 100, k at level 200, right associativity).
Notation done a := (lift (Ok a)).

(* HashTable::insert_unique and reserve. hashbrown grows by building a new table, and keeps the
   old one when the hasher panics. When it rehashes in place, the buckets not yet visited are
   lost; the order of the visit is that of the list here. *)
Fixpoint c_rehash (grow inplace : point) s (done : list (N * nat)) (ps : list (N * nat)) : M () :=
  match ps with
  | [] => lift (Ok ())
  | (h, t) :: ps =>
      let* _ := pt grow s in
      let* _ := pt inplace (set_map s (Table done (S (tepoch (sh_map s))))) in
      let* h := lift (hasher s t) in
      c_rehash grow inplace s (done ++ [(h, t)]) ps
  end.
Definition c_grow (grow inplace : point) s : M () :=
  if grows P (sh_map s) then c_rehash grow inplace s [] (tpairs (sh_map s)) else done ().
Definition c_map_insert (grow inplace : point) s (h : N) (t : nat) : M shard :=
  let* _ := c_grow grow inplace s in lift (map_insert s h t).
Definition c_reserve s : M shard :=
  let* _ := c_grow PReserveGrow PReserveInPlace s in lift (sh_reserve s).

(* The comparisons do not change the state: one point stands for all of them. *)
Definition c_contains s (h : N) k : M bool := let* _ := pt PEq s in lift (sh_contains s h k).
Definition c_search s (h : N) k : M (option nat) := let* _ := pt PEq s in lift (search s h k).
Definition c_search_resident s (h : N) k : M (option (nat * resident)) :=
  let* _ := pt PEq s in lift (search_resident s h k).
Definition c_get s (h : N) k : M (shard * option V) := let* _ := pt PEq s in lift (sh_get s h k).
Definition c_peek s (h : N) k : M (option V) := let* _ := pt PEq s in lift (sh_peek s h k).

(* shard.rs:508-530 get_mut *)
Definition c_get_mut s (h : N) k : M (shard * option (nat * N)) :=
  let* o := c_search_resident s h k in
  match o with
  | None => done (record_miss s, None)
  | Some (idx, _) =>
      let* e := lift (entry_at s idx) in
      match e with
      | Resident r =>
          let r' := if (r_ref r <? MAX_F)%N then set_key_ref r (r_ref r + 1) else r in
          let s := record_hit (set_entry s idx (Resident r')) in
          let* _ := pt PLook s in
          done (s, Some (idx, rweight r))
      | _ => lift (Fail Panic)
      end
  end.
(* shard.rs:541-553 peek_token_mut *)
Definition c_peek_token_mut s (t : nat) : M (option (nat * N)) :=
  match slab_get (sh_ents s) t with
  | Some (Resident r, _) => let* _ := pt PLook s in done (Some (t, rweight r))
  | _ => done None
  end.
(* shard.rs:563-569 peek_mut *)
Definition c_peek_mut s (h : N) k : M (option (nat * N)) :=
  let* o := c_search_resident s h k in
  match o with Some (i, _) => c_peek_token_mut s i | None => done None end.
(* shard.rs:1109-1121 Drop for RefMut *)
Definition c_refmut_drop s (idx : nat) (old_weight : N) : M shard :=
  match slab_get (sh_ents s) idx with
  | Some (Resident r, _) =>
      let* _ := pt PRefDrop s in
      let new_weight := rweight r in
      if negb (old_weight =? new_weight)%N then lift (cold_change_weight s idx old_weight new_weight) else done s
  | _ => lift (Fail UB)
  end.
Definition c_use_refmut s (o : option (nat * N)) (f : V → V) : M (shard * option V) :=
  let seen := refmut_seen s o in
  match o with
  | None => done (s, seen)
  | Some (t, w) =>
      let* s := lift (refmut_write s t f) in
      let* s := c_refmut_drop s t w in
      done (s, seen)
  end.

(* shard.rs:581-614 remove_internal *)
Definition c_remove_internal s (h : N) (idx : nat) : M (shard * option (K * V)) :=
  let* s := lift (map_remove s h idx) in
  let* (es, o) := lift (slab_remove (sh_ents s) idx) in
  let* (e, next) := lift (unwrap o) in
  let s := set_ents s es in
  match e with
  | Resident r =>
      let* _ := pt PRemove s in
      let w := rweight r in
      let st := r_state r in
      let* s := lift (dec_num s st) in
      let* s := lift (sub_weight s st w) in
      let s := if bool_decide (a_head (sh_acct s st) = Some idx) then set_head s st next else s in
      done (s, Some (r_key r, r_val r))
  | Ghost _ =>
      let* s := lift (dec_nnr s) in
      let s := if bool_decide (sh_ghost_head s = Some idx) then set_ghost_head s next else s in
      done (s, None)
  | Placeholder _ => done (s, None)
  end.
(* shard.rs:571-579 remove *)
Definition c_remove s (h : N) k : M (shard * option (K * V)) :=
  let* o := c_search s h k in
  match o with
  | None => done (s, None)
  | Some idx => c_remove_internal s h idx
  end.
(* shard.rs:335-360 retain: nothing changes before all tokens are collected *)
Fixpoint c_retain_remove s (q : list (nat * N)) : M shard :=
  match q with
  | [] => done s
  | (idx, h) :: q => let* (s, _) := c_remove_internal s h idx in c_retain_remove s q
  end.
Definition c_retain s (f : K → V → bool) : M shard :=
  let* _ := pt PRetain s in
  c_retain_remove s (retain_collect s f (titer P (sh_map s))).

(* shard.rs:705-721, in advance_hot. The hash is taken before the entry is removed. *)
Definition c_hot_evict s l (idx : nat) (r : resident) : M (shard * lcs P * bool) :=
  let* _ := pt PWeigh s in
  let* s := lift (sub_weight s Hot (rweight r)) in
  let* _ := pt PBefore s in
  let '(l, v') := call_before l (r_key r) (r_val r) in
  let r' := set_rval r v' in
  let s := set_entry s idx (Resident r') in
  let* _ := pt PReweigh s in
  if (rweight r' =? 0)%N then
    let* (es, h) := lift (slab_unlink (sh_ents s) idx) in
    done (set_head (set_ents s es) Hot h, l, true)
  else
    let* s := lift (dec_num s Hot) in
    let* _ := pt PEvHash s in
    let* (es, o) := lift (slab_remove (sh_ents s) idx) in
    match o with
    | Some (Resident ev, next) =>
        let s := set_head (set_ents s es) Hot next in
        let* _ := pt PHotEvict s in
        let l := call_evict l (r_key ev) (r_val ev) in
        let* s := lift (map_remove s (hash P (r_key r')) idx) in
        done (s, l, true)
    | _ => lift (Fail UB)
    end.
(* shard.rs:676-723 advance_hot *)
Fixpoint c_advance_hot_loop (fuel : nat) s l (idx : nat) (unpinned : N) : M (shard * lcs P * bool) :=
  match fuel with
  | 0 => lift (Fail NoFuel)
  | S fuel =>
      let* (e, next) := lift (unwrap (slab_get (sh_ents s) idx)) in
      match e with
      | Resident r =>
          let* _ := lift (assert (bool_decide (r_state r = Hot))) in
          let* _ := pt PPinned s in
          if rpinned r then
            let s := set_entry s idx (Resident (set_key_ref r (N.min (r_ref r) MAX_F - 1))) in
            if (unpinned =? 0)%N && bool_decide (Some next = a_head (sh_hot s)) then done (s, l, false)
            else c_advance_hot_loop fuel s l next unpinned
          else
            let unpinned := (unpinned + 1)%N in
            if negb (r_ref r =? 0)%N then
              let s := set_entry s idx (Resident (set_key_ref r (N.min (r_ref r) MAX_F - 1))) in
              c_advance_hot_loop fuel s l next unpinned
            else c_hot_evict s l idx r
      | _ => lift (Fail Panic)
      end
  end.
Definition c_advance_hot s l : M (shard * lcs P * bool) :=
  match a_head (sh_hot s) with
  | None => done (s, l, false)
  | Some idx => c_advance_hot_loop (3 * length (ents (sh_ents s)) + 1) s l idx 0
  end.
(* shard.rs:639 *)
Fixpoint c_trim_hot (fuel : nat) s l : M (shard * lcs P) :=
  match fuel with
  | 0 => lift (Fail NoFuel)
  | S fuel =>
      if (sh_target_hot s <? a_weight (sh_hot s))%N then
        let* (s, l, b) := c_advance_hot s l in
        if b : bool then c_trim_hot fuel s l else done (s, l)
      else done (s, l)
  end.
(* shard.rs:629-641, in advance_cold *)
Definition promote_link s (idx : nat) (r : resident) : res shard :=
  let w := rweight r in
  let! s := add_weight s Hot w in
  let! s := sub_weight s Cold w in
  let s := inc_num s Hot in
  let! s := dec_num s Cold in
  let! (es, h) := slab_unlink (sh_ents s) idx in
  let s := set_head (set_ents s es) Cold h in
  let! (es, h) := slab_link (sh_ents s) idx (a_head (sh_hot s)) in
  Ok (set_head (set_ents s es) Hot (Some h)).
Definition c_cold_promote s l (idx : nat) (r : resident) : M (shard * lcs P * bool) :=
  let r' := set_rstate (set_key_ref r (r_ref r - 1)) Hot in
  let s := set_entry s idx (Resident r') in
  let* _ := pt PPromote s in
  let* s := lift (promote_link s idx r') in
  let* (s, l) := c_trim_hot (length (ents (sh_ents s)) + 1) s l in
  done (s, l, true).
(* shard.rs:651-672, in advance_cold *)
Definition c_cold_evict s l (idx : nat) (r : resident) : M (shard * lcs P * bool) :=
  let* _ := pt PWeigh s in
  let* s := lift (sub_weight s Cold (rweight r)) in
  let* _ := pt PBefore s in
  let '(l, v') := call_before l (r_key r) (r_val r) in
  let r' := set_rval r v' in
  let s := set_entry s idx (Resident r') in
  let* _ := pt PReweigh s in
  if (rweight r' =? 0)%N then
    let* (es, h) := lift (slab_unlink (sh_ents s) idx) in
    done (set_head (set_ents s es) Cold h, l, true)
  else
    let* _ := pt PEvHash s in
    let s := set_entry s idx (Ghost (hash P (r_key r'))) in
    let* (es, h) := lift (slab_unlink (sh_ents s) idx) in
    let s := set_head (set_ents s es) Cold h in
    let* (es, h) := lift (slab_link (sh_ents s) idx (sh_ghost_head s)) in
    let s := set_ghost_head (set_ents s es) (Some h) in
    let* s := lift (dec_num s Cold) in
    let s := set_nnr s (sh_nnr s + 1) in
    let* s := lift (if (sh_cap_nr s <? sh_nnr s)%N then advance_ghost s else Ok s) in
    let* _ := pt PColdEvict s in
    let l := call_evict l (r_key r') (r_val r') in
    done (s, l, true).
(* shard.rs:616-674 advance_cold *)
Fixpoint c_advance_cold_loop (fuel : nat) s l (idx : nat) : M (shard * lcs P * bool) :=
  match fuel with
  | 0 => lift (Fail NoFuel)
  | S fuel =>
      let* (e, next) := lift (unwrap (slab_get (sh_ents s) idx)) in
      match e with
      | Resident r =>
          let* _ := lift (assert (bool_decide (r_state r = Cold))) in
          if negb (r_ref r =? 0)%N then c_cold_promote s l idx r
          else
            let* _ := pt PPinned s in
            if rpinned r then
              if bool_decide (Some next = a_head (sh_cold s)) then c_advance_hot s l
              else c_advance_cold_loop fuel s l next
            else c_cold_evict s l idx r
      | _ => lift (Fail Panic)
      end
  end.
Definition c_advance_cold s l : M (shard * lcs P * bool) :=
  match a_head (sh_cold s) with
  | None => c_advance_hot s l
  | Some idx => c_advance_cold_loop (length (ents (sh_ents s)) + 1) s l idx
  end.
Fixpoint c_evict_loop (fuel : nat) s l (extra : N) : M (shard * lcs P) :=
  match fuel with
  | 0 => lift (Fail NoFuel)
  | S fuel =>
      let* a := lift (wadd (a_weight (sh_hot s)) (a_weight (sh_cold s))) in
      let* a := lift (wadd a extra) in
      if (sh_capacity s <? a)%N then
        let* (s, l, b) := c_advance_cold s l in
        if b : bool then c_evict_loop fuel s l extra else done (s, l)
      else done (s, l)
  end.
Definition c_evict_until s l (extra : N) : M (shard * lcs P) :=
  c_evict_loop (2 * length (ents (sh_ents s)) + 1) s l extra.

(* shard.rs:739-835 insert_existing *)
Definition c_insert_existing s l (idx : nat) (key : K) (value : V) (w : N) (strat : strategy)
  : M (shard * lcs P * option (K * V)) :=
  let* e := lift (entry_at s idx) in
  let decide_enter : option (rstate * N) :=
    match e with
    | Resident r =>
        Some (r_state r, N.min (r_ref r + (if is_soft strat then 0 else 1)) MAX_F)
    | _ =>
        if is_replace strat then None
        else match e with
             | Ghost _ => Some (Hot, 0%N)
             | Placeholder p => Some (p_hot p, 1%N)
             | Resident _ => None
             end
    end in
  match decide_enter with
  | None => done (s, l, Some (key, value))
  | Some (enter_state, referenced) =>
      let s := set_entry s idx (Resident (Res key value enter_state referenced)) in
      let* (s, l) :=
        match e with
        | Resident ev =>
            let* _ := lift (assert (bool_decide (r_state ev = enter_state))) in
            let* _ := pt PReplaced s in
            let evicted_weight := rweight ev in
            let* s := lift (sub_weight s enter_state evicted_weight) in
            let* s := lift (add_weight s enter_state w) in
            let* s := lift
              (if (evicted_weight =? 0)%N && negb (w =? 0)%N then link_back s enter_state idx
               else if negb (evicted_weight =? 0)%N && (w =? 0)%N then
                 let! (es, h) := slab_unlink (sh_ents s) idx in
                 Ok (set_head (set_ents s es) enter_state h)
               else Ok s) in
            let* _ := pt PReplacedEvict s in
            done (s, call_evict l (r_key ev) (r_val ev))
        | Ghost _ =>
            let* s := lift (add_weight s Hot w) in
            let s := inc_num s Hot in
            let* s := lift (dec_nnr s) in
            let* (es, next_ghost) := lift (slab_unlink (sh_ents s) idx) in
            let s := set_ents s es in
            let s := if bool_decide (sh_ghost_head s = Some idx) then set_ghost_head s next_ghost else s in
            let* s := lift (if negb (w =? 0)%N then link_back s Hot idx else Ok s) in
            done (s, l)
        | Placeholder _ =>
            let s := inc_num s enter_state in
            let* s := lift (add_weight s enter_state w) in
            let* s := lift (if negb (w =? 0)%N then link_back s enter_state idx else Ok s) in
            done (s, l)
        end in
      let* (s, l) := c_evict_until s l 0 in
      done (s, l, None)
  end.
(* shard.rs:990-1010 handle_insert_overweight *)
Definition c_handle_insert_overweight s l (h : N) (key : K) (value : V) (strat : strategy)
  : M (shard * lcs P * option (K * V)) :=
  let* o := c_search_resident s h key in
  let* (s, l) :=
    match o with
    | Some (idx, _) =>
        let* (s, o) := c_remove_internal s h idx in
        match o with
        | Some (ek, ev) => let* _ := pt PRefused s in done (s, call_evict l ek ev)
        | None => done (s, l)
        end
    | None => done (s, l)
    end in
  if is_replace strat then done (s, l, Some (key, value))
  else let* _ := pt PRefused s in done (s, call_evict l key value, None).
(* shard.rs:937-988 insert *)
Definition c_insert s l (h : N) (key : K) (value : V) (strat : strategy)
  : M (shard * lcs P * option (K * V)) :=
  let* _ := pt PNew s in
  let w := weight P key value in
  let '(l, value, w, over) :=
    if (sh_target_hot s <? w)%N && negb (pinned P key value) then
      let '(l, value) := call_before l key value in
      let w := weight P key value in
      (l, value, w, (sh_target_hot s <? w)%N)
    else (l, value, w, false) in
  if over then c_handle_insert_overweight s l h key value strat
  else
    let* o := c_search s h key in
    match o with
    | Some idx => c_insert_existing s l idx key value w strat
    | None =>
        if is_replace strat then done (s, l, Some (key, value))
        else
          let* hw := lift (wadd (a_weight (sh_hot s)) w) in
          let enter_hot := (hw <=? sh_target_hot s)%N in
          let* (s, l) := c_evict_until s l w in
          let st := if enter_hot then Hot else Cold in
          let s := inc_num s st in
          let* s := lift (add_weight s st w) in
          let* (es, idx) := lift (slab_insert (sh_ents s) (Resident (Res key value st 0))) in
          let s := set_ents s es in
          let* s := lift (if negb (w =? 0)%N then link_back s st idx else Ok s) in
          let* s := c_map_insert PInsertGrow PInsertInPlace s h idx in
          done (s, l, None)
    end.

(* shard.rs:923-935 handle_overweight_replace_placeholder *)
Definition c_handle_overweight_replace_placeholder s l (p : plh) (key : K) (value : V) : M (shard * lcs P) :=
  let* (es, _) := lift (slab_remove (sh_ents s) (ph_idx p)) in
  let* s := lift (map_remove (set_ents s es) (ph_hash p) (ph_idx p)) in
  let* _ := pt PRefused s in
  done (s, call_evict l key value).
(* shard.rs:861-921 replace_placeholder *)
Definition c_replace_placeholder s l (p : plh) (referenced : bool) (value : V) : M (shard * lcs P * option V) :=
  match slab_get (sh_ents s) (ph_idx p) with
  | Some (Placeholder q, _) =>
      if same_as (P:=P) (p_shared q) p then
        let s := set_entry s (ph_idx p) (Ghost 0) in
        let* _ := pt PFill s in
        let key := p_key q in
        let w := weight P key value in
        let '(l, value, w, over) :=
          if (sh_target_hot s <? w)%N && negb (pinned P key value) then
            let '(l, value) := call_before l key value in
            let w := weight P key value in
            (l, value, w, (sh_target_hot s <? w)%N)
          else (l, value, w, false) in
        if over then
          let* (s, l) := c_handle_overweight_replace_placeholder s l p key value in
          done (s, l, None)
        else
          let* a := lift (wadd (a_weight (sh_hot s)) (a_weight (sh_cold s))) in
          let* a := lift (wadd a w) in
          let st := if (a <=? sh_capacity s)%N then Hot else p_hot q in
          let s := set_entry s (ph_idx p)
                     (Resident (Res key value st (if referenced then 1 else 0))) in
          let s := inc_num s st in
          let* s := lift (add_weight s st w) in
          if negb (w =? 0)%N then
            let* s := lift (link_back s st (ph_idx p)) in
            let* (s, l) := c_evict_until s l 0 in
            done (s, l, None)
          else done (s, l, None)
      else done (s, l, Some value)
  | _ => done (s, l, Some value)
  end.

(* shard.rs:1012-1068 upsert_placeholder *)
Definition c_upsert_placeholder s (h : N) k : M (shard * ((nat * V) + (plh * bool))) :=
  let* o := c_search s h k in
  match o with
  | Some idx =>
      let* e := lift (entry_at s idx) in
      match e with
      | Resident r =>
          let r' := if (r_ref r <? MAX_F)%N then set_key_ref r (r_ref r + 1) else r in
          done (record_hit (set_entry s idx (Resident r')), inl (idx, r_val r))
      | Placeholder p => done (record_hit s, inr (p_shared p, false))
      | Ghost _ =>
          let* _ := pt POwned s in
          let shared := Plh h idx (sh_nph s) in
          let s := set_nph s (sh_nph s + 1) in
          let s := set_entry s idx (Placeholder (Pla k Hot shared)) in
          let* s := lift (dec_nnr s) in
          let* (es, next) := lift (slab_unlink (sh_ents s) idx) in
          let s := set_ents s es in
          let s := if bool_decide (sh_ghost_head s = Some idx) then set_ghost_head s next else s in
          done (record_miss s, inr (shared, true))
      end
  | None =>
      let* _ := pt POwned s in
      let idx := next_free (sh_ents s) in
      let shared := Plh h idx (sh_nph s) in
      let s := set_nph s (sh_nph s + 1) in
      let* (es, idx_) := lift (slab_insert (sh_ents s) (Placeholder (Pla k Cold shared))) in
      let* _ := lift (assert (bool_decide (idx = idx_))) in
      let* s := c_map_insert PUpsertGrow PUpsertInPlace (set_ents s es) h idx in
      done (record_miss s, inr (shared, true))
  end.

(* unsync.rs:464-475 Drop for Guard: when a panic unwinds through a Guard that has not inserted
   yet, the pending load is removed. A panic in there aborts the process. *)
Definition unwinding {A} (p : plh) (m : M A) : M A :=
  (omap (λ '(q, s), match remove_placeholder s p with Ok s => Some (q, s) | Fail _ => None end) m.1, m.2).

Definition end_request {A} s (wl : bool) (a : A) : M A := if wl then done a else let* _ := pt PEnd s in done a.
(* unsync.rs:202-228 replace, replace_with_lifecycle *)
Definition c_u_replace s rs k v (soft wl : bool) : M (shard * out P) :=
  let* _ := pt PBegin s in
  let* _ := pt PHash s in
  let* (s, l, o) := c_insert s (Lcs rs []) (hash P k) k v (Replace soft) in
  match o with
  | None => end_request s wl (s, finished rs l wl (RPair None) false)
  | Some kv => done (s, Out (RPair (Some kv)) (LBegin rs :: hooks l) false None)
  end.
(* unsync.rs:337-355 insert, insert_with_lifecycle *)
Definition c_u_insert s rs k v (wl : bool) : M (shard * out P) :=
  let* _ := pt PBegin s in
  let* _ := pt PHash s in
  let* (s, l, o) := c_insert s (Lcs rs []) (hash P k) k v Insert in
  let* _ := lift (assert (is_none o)) in
  end_request s wl (s, finished rs l wl RUnit false).
(* begin_request and replace_placeholder, as in unsync.rs:257-258, 283-284, 448-452 *)
Definition c_fill s rs (p : plh) v : M (shard * lcs P) :=
  let* _ := pt PBegin s in
  let* (s, l, o) := c_replace_placeholder s (Lcs rs []) p false v in
  let* _ := lift (assert (is_none o)) in
  done (s, l).
(* unsync.rs:244-264 get_or_insert_with *)
Definition c_u_get_or_insert s rs k (w : option V) : M (shard * out P) :=
  let* _ := pt PHash s in
  let* (s, r) := c_upsert_placeholder s (hash P k) k in
  match r with
  | inl (idx, _) => done (s, plain (RVal (peek_token s idx)))
  | inr (p, _) =>
      let* _ := pt PLoader s in
      match w with
      | None => done (s, Out RErr [] true None)
      | Some v =>
          let* (s, l) := c_fill s rs p v in
          end_request s false
            (s, Out (RVal (peek_token s (ph_idx p))) (o_log (finished rs l false RUnit true)) true None)
      end
  end.
(* unsync.rs:270-290 get_mut_or_insert_with *)
Definition c_u_get_mut_or_insert s rs k (w : option V) (f : V → V) : M (shard * out P) :=
  let* _ := pt PHash s in
  let* (s, r) := c_upsert_placeholder s (hash P k) k in
  match r with
  | inl (idx, _) =>
      let* o := c_peek_token_mut s idx in
      let* (s, seen) := c_use_refmut s o f in done (s, plain (RVal seen))
  | inr (p, _) =>
      let* _ := pt PLoader s in
      match w with
      | None => done (s, Out RErr [] true None)
      | Some v =>
          let* (s, l) := c_fill s rs p v in
          let* _ := end_request s false () in
          let* o := c_peek_token_mut s (ph_idx p) in
          let* (s, seen) := c_use_refmut s o f in
          done (s, Out (RVal seen) (o_log (finished rs l false RUnit true)) true None)
      end
  end.
(* unsync.rs:437-475 Guard *)
Definition c_use_guard s rs (p : plh) (g : guard_use P) : M (shard * out P) :=
  match g with
  | GInsert v wl =>
      let* (s, l) := unwinding p (c_fill s rs p v) in
      end_request s wl (s, finished rs l wl RGuard false)
  | GDrop => let* s := lift (remove_placeholder s p) in done (s, plain RGuard)
  | GForget => done (s, plain RGuard)
  end.
(* unsync.rs:295-313 get_ref_or_guard *)
Definition c_u_ref_or_guard s rs k (g : guard_use P) : M (shard * out P) :=
  let* _ := pt PHash s in
  let* (s, r) := c_upsert_placeholder s (hash P k) k in
  match r with
  | inl (_, v) => done (s, plain (RVal (Some v)))
  | inr (p, _) => c_use_guard s rs p g
  end.
(* unsync.rs:318-334 get_mut_or_guard *)
Definition c_u_mut_or_guard s rs k (f : V → V) (g : guard_use P) : M (shard * out P) :=
  let* _ := pt PHash s in
  let* (s, r) := c_upsert_placeholder s (hash P k) k in
  match r with
  | inl (idx, _) =>
      let* o := c_peek_token_mut s idx in
      let* (s, seen) := c_use_refmut s o f in done (s, plain (RVal seen))
  | inr (p, _) => c_use_guard s rs p g
  end.

(* one API call *)
Definition c_exec s (c : cmd P) : M (shard * out P) :=
  match c with
  | CContains k => let* _ := pt PHash s in let* b := c_contains s (hash P k) k in done (s, plain (RBool b))
  | CGet k => let* _ := pt PHash s in let* (s, o) := c_get s (hash P k) k in done (s, plain (RVal o))
  | CPeek k => let* _ := pt PHash s in let* o := c_peek s (hash P k) k in done (s, plain (RVal o))
  | CGetMut k f =>
      let* _ := pt PHash s in let* (s, o) := c_get_mut s (hash P k) k in
      let* (s, o) := c_use_refmut s o f in done (s, plain (RVal o))
  | CPeekMut k f =>
      let* _ := pt PHash s in let* o := c_peek_mut s (hash P k) k in
      let* (s, o) := c_use_refmut s o f in done (s, plain (RVal o))
  | CRemove k => let* _ := pt PHash s in let* (s, o) := c_remove s (hash P k) k in done (s, plain (RPair o))
  | CReplace rs k v soft wl => c_u_replace s rs k v soft wl
  | CInsert rs k v wl => c_u_insert s rs k v wl
  | CRetain f => let* s := c_retain s f in done (s, plain RUnit)
  | CClear => done (sh_clear s, plain RUnit)
  | CDrain => let '(s, l) := sh_drain s in done (s, plain (RItems l))
  | CReserve => let* s := c_reserve s in done (s, plain RUnit)
  | CGetOrInsert rs k w => c_u_get_or_insert s rs k w
  | CGetMutOrInsert rs k w f => c_u_get_mut_or_insert s rs k w f
  | CRefOrGuard rs k g => c_u_ref_or_guard s rs k g
  | CMutOrGuard rs k f g => c_u_mut_or_guard s rs k f g
  end.

(* The call m on the cache s panicked in user code, at point p, and left the cache s'. *)
Definition panicked s (m : cmd P) (p : point) s' : Prop := (p, s') ∈ (c_exec s m).1.
End crash.
