(* C19 continued: a cache that was cleared or drained answers like a new one. The vocabulary
   is in PropSpec.v and Anew.v. *)
From Verif Require Import AnewSync SeqProofs SyncSeq Demo DemoSync PropsSeqB.

(* Whatever was done before the clear or drain, every later sequence of calls has the same
   results, the same lifecycle events and leaves the same items in the same order as in a cache
   just created, and it panics where that one panics. Only the statistics go on counting. *)
Theorem C19_like_new : ∀ (P : Params), Lawful P → history_blind P →
  ∀ budget ghosts cap (h : list (cmd P)) os s m s' o (h2 : list (cmd P)),
  history budget ghosts cap h os s → m = CClear ∨ m = CDrain → exec s m = Ok (s', o) →
  match run s' h2, run (sh_new budget ghosts cap) h2 with
  | Ok (s1, os1), Ok (s2, os2) =>
      os1 = os2 ∧ sh_iter s1 = sh_iter s2 ∧ sh_len s1 = sh_len s2 ∧ sh_weight s1 = sh_weight s2 ∧ storage s1 = storage s2 ∧
      sh_hits s1 = (sh_hits s + sh_hits s2)%N ∧ sh_misses s1 = (sh_misses s + sh_misses s2)%N
  | Fail f1, Fail f2 => f1 = f2
  | _, _ => False
  end.
Proof.
  intros P LW OR budget ghosts cap h os s m s' o h2 H Hm He.
  destruct (C19_clear_and_drain P LW _ _ _ _ _ _ _ _ _ H Hm He) as (_ & _ & _ & _ & _ & -> & _).
  assert (∀ n a b d, set_nph (set_misses (set_hits (set_map (sh_new budget ghosts cap) (Table [] n)) a) b) d =
    sh_shard (P:=P) n d a b (sh_new budget ghosts cap)) as E.
  { intros. unfold sh_shard, set_nph, set_misses, set_hits, set_map, sh_new. simpl. by rewrite !N.add_0_r. }
  unfold tclear. rewrite E. pose proof (shf_run (S (tepoch (sh_map s))) (sh_nph s) (sh_hits s) (sh_misses s) OR (sh_new budget ghosts cap) h2) as Hr.
  unfold shf in Hr. rewrite Hr. destruct (run (sh_new budget ghosts cap) h2) as [[s2 os2]|f]; [|done].
  split; [done|]. split; [apply (shf_iter (S (tepoch (sh_map s))) (sh_nph s) (sh_hits s) (sh_misses s) s2)|].
  split; [done|]. split; [done|]. split; [|done].
  unfold storage. f_equal. apply fmap_length.
Qed.
Print Assumptions C19_like_new.

(* The sync cache, after a clear. *)
Theorem C19_sync_like_new : ∀ (P : Params), Lawful P → ptr_ids P = true → history_blind P →
  ∀ budget ghosts cap e (h : list (scmd P)) os c c' o (h2 : list (scmd P)),
  s_history budget ghosts cap e h os c → sc_exec c (SAll CClear) = Ok (c', o) →
  match sc_run c' h2, sc_run (sc_fresh budget ghosts cap (2 ^ e)) h2 with
  | Ok (c1, os1), Ok (c2, os2) =>
      let total f c := foldr N.add 0%N (map f (sc_shards c)) in
      os1 = os2 ∧ sc_items c1 = sc_items c2 ∧
      total sh_hits c1 = (total sh_hits c + total sh_hits c2)%N ∧ total sh_misses c1 = (total sh_misses c + total sh_misses c2)%N
  | Fail f1, Fail f2 => f1 = f2
  | _, _ => False
  end.
Proof.
  intros P LW PI OR budget ghosts cap e h os c c' o h2 H He. pose proof (s_history_SI LW PI _ _ _ _ _ _ _ H) as HS.
  destruct (clear_shards budget ghosts cap c c' o) as [E1 E2]; [|exact He|].
  { intros s [j Hj]%elem_of_list_lookup. destruct (si_inv _ _ _ _ _ HS _ _ Hj) as [_ Hc]. unfold cfg in Hc. injection Hc as Hc1 Hc2 Hc3.
    unfold sh_clear, shs, cleared, sh_shard, tclear. simpl. by rewrite Hc1, Hc2, Hc3, !N.add_0_r. }
  assert (length (sc_shards c) = N.to_nat (2 ^ e) ∧ sc_mask c = (2 ^ e - 1)%N) as [El Em] by (split; [apply (si_len _ _ _ _ _ HS)|apply (si_mask _ _ _ _ _ HS)]).
  assert (c' = shc (map cleared (sc_shards c)) (sc_fresh budget ghosts cap (2 ^ e))) as ->.
  { destruct c' as [l m]. simpl in E1, E2. unfold shc, sc_fresh. simpl. rewrite E2, Em, E1. f_equal. rewrite <-El. clear.
    induction (sc_shards c) as [|s l IH]; [done|]. cbn [map length replicate zip_with]. by f_equal. }
  assert (fits (map cleared (sc_shards c)) (sc_fresh budget ghosts cap (2 ^ e) : scache P)) as HF.
  { unfold fits, sc_fresh. simpl. by rewrite map_length, replicate_length. }
  destruct (shc_run OR _ _ h2 HF) as [-> F2]. destruct (sc_run _ h2) as [[c2 os2]|]; [|done]. specialize (F2 _ _ eq_refl). cbn zeta.
  rewrite shc_items, shc_hits, shc_misses by done. by rewrite !map_map.
Qed.
Print Assumptions C19_sync_like_new.

(* A history that leaves pinned, hot and ghost items behind, then a clear; the calls after it
   evict and overlap with the keys used before. *)
Example C19_like_new_example :
  history_blind H ∧ (∃ os, history (P:=H) 10%N 3%N 14%N mixed os (state_of 10 3 14 mixed)) ∧
  match exec (state_of 10 3 14 mixed) (CClear (P:=H)) with
  | Ok (s', _) => match run s' mixed with
    | Ok (s1, os1) => os1 = outs_of 10 3 14 mixed ∧ sh_len s1 = 3%N ∧ sh_hits s1 = (2 * sh_hits (state_of 10 3 14 mixed))%N ∧
        sh_hits s1 ≠ 0%N | Fail _ => False end
  | Fail _ => False end.
Proof.
  split; [intros T T' E; simpl; rewrite E; done|]. split; [eexists; vm_compute; reflexivity|].
  vm_compute. split_and!; done.
Qed.

Example C19_sync_like_new_example :
  history_blind SW ∧ s_history (P:=SW) 6%N 3%N 8%N 1%N splain (souts_of 6 3 8 1 splain) (sstate_of 6 3 8 1 splain) ∧
  match sc_exec (sstate_of 6 3 8 1 splain) (SAll (CClear (P:=SW))) with
  | Ok (c', _) => match sc_run c' splain with Ok (c1, os1) => os1 = souts_of 6 3 8 1 splain ∧ sc_items c1 ≠ [] | Fail _ => False end
  | Fail _ => False end.
Proof.
  split; [intros T T' E; simpl; rewrite E; done|]. split; [split; [apply splain_api|vm_compute; reflexivity]|].
  vm_compute. split_and!; done.
Qed.
