(* C62, concurrent: the specification is in ListenConcSpec.v. *)
From Verif Require Import ListenConc DemoConc.

(* Any number of threads and tasks, in any interleaving, and a lifecycle whose before_evict puts
   values that do not depend on the request state: the same schedule with other request states
   can be run too. It leaves the very same cache, and the same agents did the same in the same
   order, with the same results and hook calls. The same agents are blocked, and the same would panic. *)
Theorem C62_states_concurrent : ∀ (P : Params), state_blind P →
  ∀ dbg budget ghosts cap e (ls ls' : list (label P)) y,
  Forall2 same_label ls ls' → execution dbg budget ghosts cap e ls y →
  ∃ y', execution dbg budget ghosts cap e ls' y' ∧ y_cache y' = y_cache y ∧ Forall2 same_entry (y_log y) (y_log y') ∧
    ∀ a, (go dbg y' a = None ↔ go dbg y a = None) ∧ ∀ f, go dbg y' a = Some (Fail f) ↔ go dbg y a = Some (Fail f).
Proof.
  intros P SB dbg budget ghosts cap e ls ls' y HF H.
  destruct (s_steps SB dbg _ _ _ H _ _ (ysim_refl_new _ _ _ _) HF) as (y' & Hs & HY). exists y'.
  destruct (ysim_parts _ _ HY) as [Hc HL]. split_and!; [exact Hs|exact Hc|exact HL|]. intros a. by apply (s_next SB).
Qed.
Print Assumptions C62_states_concurrent.

(* Two threads whose calls overlap insert until items are evicted; a third loads a value, for which
   a fourth waits. The same with request states 100: the same evictions, other states at the end. *)
Definition lively : list (script SW) :=
  concat ((λ i, let n := (2 * i)%nat in let k := N.of_nat i in
    [ call_ (P:=SW) (KCmd (CInsert (P:=SW) 0%N k 4%N false)); call_ (P:=SW) (KCmd (CInsert (P:=SW) 0%N (k + 50)%N 3%N false));
      L (Go (n + 1)%nat); L (Go n); Run (n + 1)%nat; Run n ]) <$> seq 0 8) ++
  [ load (P:=SW) 99%N None; Run 16; load (P:=SW) 99%N None; Run 17; L (PutG (P:=SW) 16 0%N 2%N false); Run 16; Run 17 ].
Definition relabel (x : label SW) : label SW :=
  match x with
  | Spawn (KCmd m) => Spawn (P:=SW) (KCmd (restate (P:=SW) 100%N m))
  | PutG a _ v wl => PutG (P:=SW) a 100%N v wl
  | x => x
  end.
Definition finals (y : sys SW) : list N :=
  flat_map (λ x, match x.2 with EvRet (RetOut o) => flat_map (λ e : lev SW, match e with LEnd r => [r] | _ => [] end) (o_log o) | _ => [] end) (y_log y).
Definition said (y : sys SW) : list (event SW) :=
  flat_map (λ x, match x.2 with EvRet (RetOut o) => heard (o_log o) | _ => [] end) (y_log y).
Example C62_states_concurrent_example :
  state_blind SW ∧ Forall2 same_label (on_ls lively) (relabel <$> on_ls lively) ∧
  execution true 10 3 14 1 (on_ls lively) (on lively) ∧ (10 <=? length (said (on lively)))%nat = true ∧
  let ys := on (L (P:=SW) <$> (relabel <$> on_ls lively)) in
  length (y_log ys) = length (y_log (on lively)) ∧ said ys = said (on lively) ∧ finals ys ≠ finals (on lively).
Proof.
  split; [done|]. split.
  { apply Forall2_fmap_r, Forall_Forall2_diag, Forall_forall. intros x _. destruct x as [[m| |]|a|a|d|a wk|a|a rs v wl|a]; try done. right. by exists 100%N. }
  split; [apply (on_execution (P:=SW))|]. split; [vm_compute; reflexivity|]. cbv zeta. split; [vm_compute; reflexivity|]. split; [vm_compute; reflexivity|].
  vm_compute. discriminate.
Qed.
