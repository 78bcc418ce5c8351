(* C48: a scan does not push out the working set. The vocabulary is in PropSpec.v and Scan.v. *)
From Verif Require Import ScanProofs DemoScan.

(* A working set of weight at most lim was inserted (lim at most the hot budget) or loaded with
   get_or_insert_with (lim up to the capacity), possibly read, updated and partly removed. Then
   comes a scan of any length: keys never offered before are inserted, each leaving room for
   lim, or, where lim is the capacity, loaded, however heavy they are. Every item of the working
   set is still cached, with its value, when the scan ends. *)
Theorem C48_scan : ∀ (P : Params), Lawful P →
  ∀ budget ghosts cap lim (h1 : list (cmd P)) os1 s1 (h2 : list (cmd P)) os2 s2,
  history budget ghosts cap h1 os1 s1 → (lim ≤ cap)%N → warm budget lim h1 →
  run s1 h2 = Ok (s2, os2) → scanning budget cap lim (sh_iter s1) (offered_keys h1) [] h2 →
  ∀ k v, (k, v) ∈ sh_iter s1 → (k, v) ∈ sh_iter s2.
Proof.
  intros P LW budget ghosts cap lim h1 os1 s1 h2 os2 s2 H Hlc [Hw Hle] Hr Hsc k v Hin.
  destruct (history_inv LW budget ghosts cap [] [] (sh_new budget ghosts cap) eq_refl) as [HI0 Hcfg0].
  assert (AllHot 0 (sh_new budget ghosts cap)) as HA0 by (split; done).
  pose proof (warm_run LW budget ghosts cap lim h1 0 _ _ _ HA0 Hcfg0 Hlc Hw Hle H) as HA.
  pose proof (scan_run LW budget ghosts cap lim (sh_iter s1) h2 h1 os1 s1 os2 s2 (offered_keys h1) [] H) as Hs.
  destruct (Hs (λ c k', offers_keys h1 budget lim c k' Hw) Hlc (allhot_scanned _ _ HA) Hr Hsc k v Hin) as (t & r & Ht & _ & Hk & Hv).
  apply iter_elem. eauto.
Qed.
Print Assumptions C48_scan.

(* An insert that is heavier, items of the scan that are read, and keys of the scan that come
   back can each push out items of the working set that fit into the hot budget. *)
Theorem C48_other_scans_refuted : ∃ (P : Params), Lawful P ∧ ∃ budget ghosts cap (h1 : list (cmd P)) os1 s1 k v,
  history budget ghosts cap h1 os1 s1 ∧ (budget ≤ cap)%N ∧ warm budget budget h1 ∧ (k, v) ∈ sh_iter s1 ∧
  (∃ rs k' v' s2 o, exec s1 (CInsert rs k' v' false) = Ok (s2, o) ∧ k' ∉ offered_keys h1 ∧ (weight P k' v' ≤ budget)%N ∧ (k, v) ∉ sh_iter s2) ∧
  (∃ h2 s2 os2, run s1 h2 = Ok (s2, os2) ∧ (k, v) ∉ sh_iter s2 ∧ Forall (λ c, match c with CGet k' => k' ∉ offered_keys h1 | CInsert _ k' v' _ => k' ∉ offered_keys h1 ∧ weight P k' v' + budget ≤ cap | _ => False end)%N h2) ∧
  (∃ h2 s2 os2, run s1 h2 = Ok (s2, os2) ∧ (k, v) ∉ sh_iter s2 ∧ Forall (λ c, match c with CInsert _ k' v' _ => k' ∉ offered_keys h1 ∧ weight P k' v' + budget ≤ cap | _ => False end)%N h2).
Proof.
  exists D. split; [apply lawD|]. exists 8%N, 5%N, 12%N, warm_puts, (outs_of 8 5 12 warm_puts), (state_of 8 5 12 warm_puts), 1%N, 3%N.
  assert (∀ h : list (cmd D), (1%N, 3%N) ∉ sh_iter (state_of 8 5 12 h) ↔ bool_decide ((1%N, 3%N) ∈ (sh_iter (state_of 8 5 12 h) : list (N * N))) = false) as Hd.
  { intros h. by rewrite bool_decide_eq_false. }
  split; [vm_compute; reflexivity|]. split; [done|]. split.
  { split; [|vm_compute; done]. repeat constructor; vm_compute; done. }
  split; [vm_compute; left|]. split_and!.
  - exists 0%N, 11%N, 5%N, (state_of 8 5 12 (warm_puts ++ [put 11 5])). eexists. split; [vm_compute; reflexivity|]. split.
    { apply (bool_decide_unpack (11%N ∉ ([1; 2; 3]%N : list N))). vm_compute. done. }
    split; [vm_compute; done|]. apply Hd. vm_compute. reflexivity.
  - exists [put 11 4; CGet (P:=D) 11%N; put 12 4; CGet (P:=D) 12%N; put 13 4], (state_of 8 5 12 (warm_puts ++ [put 11 4; CGet (P:=D) 11%N; put 12 4; CGet (P:=D) 12%N; put 13 4])). eexists.
    split; [vm_compute; reflexivity|]. split; [apply Hd; vm_compute; reflexivity|].
    change (offered_keys warm_puts) with ([1; 2; 3]%N : list N). repeat constructor; try (vm_compute; done); apply (bool_decide_unpack (_ ∉ ([1; 2; 3]%N : list N))); vm_compute; done.
  - exists [put 11 4; put 12 4; put 11 4; put 12 4], (state_of 8 5 12 (warm_puts ++ [put 11 4; put 12 4; put 11 4; put 12 4])). eexists.
    split; [vm_compute; reflexivity|]. split; [apply Hd; vm_compute; reflexivity|].
    change (offered_keys warm_puts) with ([1; 2; 3]%N : list N). repeat constructor; try (vm_compute; done); apply (bool_decide_unpack (_ ∉ ([1; 2; 3]%N : list N))); vm_compute; done.
Qed.
Print Assumptions C48_other_scans_refuted.

(* Three items that fill the hot budget, then a scan by inserts that evicts, with reads, a load
   of a cached key, a removal and an insert that is refused in between. *)
Example C48_inserts_example :
  (∃ os, history (P:=D) 8%N 5%N 12%N warm_puts os (state_of 8 5 12 warm_puts)) ∧ warm (P:=D) 8%N 8%N warm_puts ∧
  (∃ os, run (state_of 8 5 12 warm_puts) scan_puts = Ok (state_of 8 5 12 (warm_puts ++ scan_puts), os)) ∧
  scanning (P:=D) 8%N 12%N 8%N (sh_iter (state_of 8 5 12 warm_puts)) (offered_keys warm_puts) [] scan_puts ∧
  sh_iter (state_of 8 5 12 warm_puts) = [(1, 3); (2, 3); (3, 2)]%N ∧
  sh_iter (state_of 8 5 12 (warm_puts ++ scan_puts)) = [(1, 3); (2, 3); (3, 2); (15, 4)]%N.
Proof.
  split; [eexists; vm_compute; reflexivity|]. split; [split; [repeat constructor; vm_compute; done|vm_compute; done]|].
  split; [eexists; vm_compute; reflexivity|]. split; [|split; vm_compute; reflexivity].
  assert (sh_iter (state_of 8 5 12 warm_puts) = [(1, 3); (2, 3); (3, 2)]%N) as -> by (vm_compute; reflexivity).
  change (offered_keys warm_puts) with ([1; 2; 3]%N : list N). unfold scan_puts, put, load.
  assert (∀ (l : list N) (k : N), forallb (λ k', negb (k' =? k)%N) l = true → ∀ k', k' ∈ l → k' ≠ k) as Hf.
  { intros l k Hl k' Hin ->. rewrite forallb_forall in Hl. apply elem_of_list_In, Hl in Hin. by rewrite N.eqb_refl in Hin. }
  assert (∀ (l : list N) (k : N), forallb (λ k', negb (k =? k')%N) l = true → ∀ k', k' ∈ l → (k =? k')%N = false) as Hg.
  { intros l k Hl k' Hin. rewrite forallb_forall in Hl. apply elem_of_list_In, Hl in Hin. by apply negb_true_iff. }
  cbn [scanning]. repeat match goal with
  | |- (_ ∨ _) => left
  | |- _ ∧ _ => split
  | |- True => exact I
  | |- ∀ k', k' ∈ _ → hash D k' ≠ _ => apply Hf; reflexivity
  | |- ∀ k', k' ∈ _ → keqb D _ k' = false => apply Hg; reflexivity
  | |- ¬ refused _ _ _ _ → pinned _ _ _ = _ => done
  | |- ¬ refused _ _ _ _ → _ => intros Hr; vm_compute; try done; exfalso; apply Hr; vm_compute; done
  | |- _ => vm_compute; done
  end.
Qed.
(* Three items that exceed the hot budget, then loads that evict. *)
Example C48_loads_example :
  (∃ os, history (P:=D) 8%N 5%N 12%N warm_loads os (state_of 8 5 12 warm_loads)) ∧ warm (P:=D) 8%N 12%N warm_loads ∧
  (∃ os, run (state_of 8 5 12 warm_loads) scan_loads = Ok (state_of 8 5 12 (warm_loads ++ scan_loads), os)) ∧
  scanning (P:=D) 8%N 12%N 12%N (sh_iter (state_of 8 5 12 warm_loads)) (offered_keys warm_loads) [] scan_loads ∧
  sh_iter (state_of 8 5 12 warm_loads) = [(1, 4); (2, 4); (3, 3)]%N ∧
  sh_iter (state_of 8 5 12 (warm_loads ++ scan_loads)) = [(1, 4); (2, 4); (3, 3); (11, 1)]%N.
Proof.
  split; [eexists; vm_compute; reflexivity|]. split; [split; [repeat constructor; vm_compute; done|vm_compute; done]|].
  split; [eexists; vm_compute; reflexivity|]. split; [|split; vm_compute; reflexivity].
  assert (sh_iter (state_of 8 5 12 warm_loads) = [(1, 4); (2, 4); (3, 3)]%N) as -> by (vm_compute; reflexivity).
  change (offered_keys warm_loads) with ([1; 2; 3]%N : list N). unfold scan_loads, load.
  assert (∀ (l : list N) (k : N), forallb (λ k', negb (k' =? k)%N) l = true → ∀ k', k' ∈ l → k' ≠ k) as Hf.
  { intros l k Hl k' Hin ->. rewrite forallb_forall in Hl. apply elem_of_list_In, Hl in Hin. by rewrite N.eqb_refl in Hin. }
  cbn [scanning]. repeat match goal with
  | |- (?a ≠ None ∧ _) ∨ _ => let x := eval vm_compute in a in match x with None => right | Some _ => left end
  | |- _ ∧ _ => split
  | |- True => exact I
  | |- ∀ k', k' ∈ _ → hash D k' ≠ _ => apply Hf; reflexivity
  | |- ¬ refused _ _ _ _ → pinned _ _ _ = _ => done
  | |- _ => vm_compute; done
  end.
Qed.
