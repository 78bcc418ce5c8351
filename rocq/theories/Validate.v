(* The self-check of the cache: LinkedSlab::validate and CacheShard::validate, which the tests and
   fuzzers of the project call (cfg(any(fuzzing, test))). Always with debug assertions. *)
From Verif Require Export Shard.

Section validate_slab.
Context {T : Type}.
Implicit Types (s : slab T) (e : snode T).
(* linked_slab.rs:42-48: collects the free list; the HashSet is a list. Each turn visits one slot;
   a chain longer than the slab would go round for ever, and runs out of fuel here. *)
Fixpoint collect_free (fuel : nat) s (nf : nat) (freelist : list nat) : res (list nat) :=
  if bool_decide (nf = length (ents s)) then Ok freelist
  else match fuel with
       | 0 => Fail NoFuel
       | S fuel =>
           let! e := at_ s nf in
           let! _ := ensure (negb (is_live e)) in
           collect_free fuel s (nxt e) (nf :: freelist)
       end.
(* linked_slab.rs:49-55: neither an item nor its neighbours are free *)
Fixpoint check_live (freelist : list nat) (i : nat) (es : list (snode T)) : res () :=
  match es with
  | [] => Ok ()
  | e :: es =>
      let! _ := if is_live e then
          let! _ := ensure (negb (bool_decide (i ∈ freelist))) in
          let! _ := ensure (negb (bool_decide (prv e ∈ freelist))) in
          ensure (negb (bool_decide (nxt e ∈ freelist)))
        else Ok () in
      check_live freelist (S i) es
  end.
(* linked_slab.rs:40-56 validate *)
Definition slab_validate s : res () :=
  let! freelist := collect_free (length (ents s)) s (next_free s) [] in
  check_live freelist 0 (ents s).
End validate_slab.

Section validate.
Context {P : Params}.
Notation shard := (shard P). Notation entry := (entry P).
Implicit Types (s : shard) (e : entry).
(* shard.rs:256-262: the local variables *)
Record tally := Tally { t_nhot : N; t_ncold : N; t_nnr : N; t_whot : N; t_whotp : N; t_wcold : N; t_wcoldp : N }.
(* shard.rs:263-289: the loop over the entries *)
Definition tally1 (z : tally) e : res tally :=
  match e with
  | Resident r =>
      let w := rweight r in
      let p := pinned P (r_key r) (r_val r) in
      match r_state r with
      | Cold =>
          if p then let! w' := wadd (t_wcoldp z) w in Ok (Tally (t_nhot z) (t_ncold z + 1) (t_nnr z) (t_whot z) (t_whotp z) (t_wcold z) w')
          else let! w' := wadd (t_wcold z) w in Ok (Tally (t_nhot z) (t_ncold z + 1) (t_nnr z) (t_whot z) (t_whotp z) w' (t_wcoldp z))
      | Hot =>
          if p then let! w' := wadd (t_whotp z) w in Ok (Tally (t_nhot z + 1) (t_ncold z) (t_nnr z) (t_whot z) w' (t_wcold z) (t_wcoldp z))
          else let! w' := wadd (t_whot z) w in Ok (Tally (t_nhot z + 1) (t_ncold z) (t_nnr z) w' (t_whotp z) (t_wcold z) (t_wcoldp z))
      end
  | Ghost _ => Ok (Tally (t_nhot z) (t_ncold z) (t_nnr z + 1) (t_whot z) (t_whotp z) (t_wcold z) (t_wcoldp z))
  | Placeholder _ => Ok z
  end.
Fixpoint tally_all (z : tally) (es : list entry) : res tally :=
  match es with [] => Ok z | e :: es => let! z := tally1 z e in tally_all z es end.
(* shard.rs:254-316 validate; unsync.rs:377-379; sync.rs:157-161 calls it on every shard, with false *)
Definition validate (accept_overweight : bool) s : res () :=
  let! _ := slab_validate (sh_ents s) in
  let! z := tally_all (Tally 0 0 0 0 0 0 0) (slab_iter (sh_ents s)) in
  let! _ := ensure (t_nhot z =? a_num (sh_hot s))%N in
  let! _ := ensure (t_ncold z =? a_num (sh_cold s))%N in
  let! _ := ensure (t_nnr z =? sh_nnr s)%N in
  let! wh := wadd (t_whot z) (t_whotp z) in
  let! _ := ensure (wh =? a_weight (sh_hot s))%N in
  let! wc := wadd (t_wcold z) (t_wcoldp z) in
  let! _ := ensure (wc =? a_weight (sh_cold s))%N in
  let! _ := if accept_overweight then Ok () else
      let! w := wadd (t_whot z) (t_wcold z) in ensure (w <=? sh_capacity s)%N in
  ensure (t_nnr z <=? sh_cap_nr s)%N.
End validate.
