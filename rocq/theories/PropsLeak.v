(* Property C56: references that are forgotten and iterators that are not finished. *)
From Verif Require Import Reach SeqProofs5 Demo CrashSpec LeakSpec LeakProofs.

(* ---- C56 ---- *)
(* In every state, forgetting a reference through which the weight was not changed is the same as
   dropping it, for each of the four calls that return one. *)
Theorem C56_same_weight : ∀ (P : Params) (B : Build) (s : shard P) m f, l_change m = Some f →
  (∀ k v, weight P k (f v) = weight P k v) → l_exec (B:=B) s m = exec (B:=B) s (l_kept m).
Proof. intros. by eapply l_exec_same. Qed.
Print Assumptions C56_same_weight.
(* Whatever was written through it: the caller was given the value, the write is kept and seen by
   every lookup, len() is exact, and weight() is what it was before the write. No weight overflows. *)
Theorem C56_write_kept : ∀ (P : Params), Lawful P → ∀ budget ghosts cap (h : list (cmd P)) os s k f m,
  history budget ghosts cap h os s → m = LGetMut k f ∨ m = LPeekMut k f →
  ∃ s', l_exec s m = Ok (s', plain (RVal (value_of k (sh_iter s)))) ∧
    sh_iter s' ≡ₚ Spec.upd k f (sh_iter s) ∧ sh_len s' = N.of_nat (length (sh_iter s')) ∧
    sh_weight s' = sh_weight s ∧
    (∀ k', u_peek s' k' = Ok (value_of k' (Spec.upd k f (sh_iter s)))).
Proof.
  intros P LW budget ghosts cap h os s k f m Hh Hm. destruct (history_inv LW _ _ _ _ _ _ Hh) as [HI _].
  assert (∀ s0 : shard P, length (Spec.upd k f (sh_iter s0)) = length (sh_iter s0)) as Hlen by (intros; apply map_length).
  destruct Hm as [-> | ->]; cbn [l_exec].
  - destruct (sh_get_mut_spec LW s k HI) as (s1 & o & -> & Hq & _ & Hr). cbn [rbind].
    destruct (leak_seen LW s1 k o f (q_inv _ _ Hq) Hr) as (s' & -> & Hi & Hl & Hw & Hp). cbn [rbind].
    rewrite (q_iter _ _ Hq) in *. exists s'. split; [done|]. split; [done|]. split_and!.
    + rewrite Hl, Hi, Hlen. rewrite (len_exact s1 (q_inv _ _ Hq)). by rewrite (q_iter _ _ Hq).
    + rewrite Hw. rewrite (weight_exact s1 (q_inv _ _ Hq)), (weight_exact s HI). by rewrite (q_iter _ _ Hq).
    + done.
  - destruct (sh_peek_mut_spec LW s k HI) as (o & -> & Hr). cbn [rbind].
    destruct (leak_seen LW s k o f HI Hr) as (s' & -> & Hi & Hl & Hw & Hp). cbn [rbind].
    exists s'. split; [done|]. split; [done|]. split_and!; [|done|done]. by rewrite Hl, Hi, Hlen, (len_exact s HI).
Qed.
Print Assumptions C56_write_kept.
(* A draining iterator of which only n items are taken, and which is then dropped or forgotten,
   leaves the state that drain() to its end and clear() leave; the items taken are of the cache. *)
Theorem C56_unfinished_drain : ∀ (P : Params) (B : Build) (s : shard P) n,
  ∃ s', l_exec (B:=B) s (LDrain n) = Ok (s', plain (RItems (take n (sh_iter s)))) ∧
    exec (B:=B) s CClear = Ok (s', plain RUnit) ∧ exec (B:=B) s CDrain = Ok (s', plain (RItems (sh_iter s))).
Proof. intros. by eexists. Qed.
Print Assumptions C56_unfinished_drain.
(* No history of such calls and others leads to undefined behaviour, in either build, from any state. *)
Theorem C56_no_undefined_behaviour : ∀ (P : Params) (B : Build) (s : shard P) (h : list (cmd P + lcmd P)),
  l_run (B:=B) s h ≠ Fail UB.
Proof. intros. apply safe_l_run. Qed.
Print Assumptions C56_no_undefined_behaviour.
(* clear() repairs the cache: whatever was forgotten before, in the calls that follow it the length
   and the weight are exact, nothing panics, and the calls meet their specification. *)
Theorem C56_clear_repairs : ∀ (P : Params), Lawful P → ∀ budget ghosts cap (h : list (cmd P + lcmd P)) os s s' o h' os' s2,
  l_run (sh_new budget ghosts cap) h = Ok (s, os) → exec s CClear = Ok (s', o) → run s' h' = Ok (s2, os') →
  sh_len s2 = N.of_nat (length (sh_iter s2)) ∧
  sh_weight s2 = (if (wsum (sh_iter s2) <? two64)%N then Ok (wsum (sh_iter s2)) else Fail WeightOvf) ∧
  ukeys (sh_iter s2) ∧
  (∀ m, match exec s2 m with
        | Ok (s3, o3) => does (sh_capacity s) (sh_target_hot s) (sh_iter s2) m o3 (sh_iter s3)
        | Fail SlabFull => True
        | Fail WeightOvf => may_overflow (sh_capacity s) (sh_target_hot s) (sh_iter s2) m
        | Fail _ => False
        end).
Proof.
  intros P LW budget ghosts cap h os s s' o h' os' s2 _ [= <- _] Hr. destruct (run_inv LW _ _ _ _ (cleared_inv s) Hr) as [HI Hc].
  unfold cfg in Hc. simpl in Hc. injection Hc as Ht Hc _.
  split_and!; [by apply len_exact|by apply weight_exact|by apply inv_ukeys|].
  intros m. pose proof (exec_spec LW s2 m HI) as H. rewrite <-Hc, <-Ht. destruct (exec s2 m) as [[s3 o3]|[]]; simpl in H; try done. apply H.
Qed.
Print Assumptions C56_clear_repairs.
(* But it is false that the weights stay exact without a clear(): after a write that made an item
   heavier, weight() is too small; removing the item panics in a debug build, and in a release build
   weight() is then far above everything the cache can hold. *)
Theorem C56_weight_exact_refuted : ∃ (P : Params), Lawful P ∧ ∃ budget ghosts cap rs (k : K P) v f s os,
  l_run (sh_new budget ghosts cap) [inl (CInsert rs k v false); inr (LGetMut k f)] = Ok (s, os) ∧
  (∃ w, sh_weight s = Ok w ∧ (w < wsum (sh_iter s))%N) ∧ exec s (CRemove k) = Fail Panic ∧
  ∃ s' o, exec (B:=release) s (CRemove k) = Ok (s', o) ∧ sh_iter s' = [] ∧ sh_weight (B:=release) s' = Ok (two64 - 1)%N.
Proof.
  exists W. split; [exact lawW|]. exists 10%N, 3%N, 14%N, 0%N, 1%N, 3%N, (λ v, v + 1)%N. eexists _, _.
  split; [vm_compute; reflexivity|]. split; [eexists; split; [vm_compute; reflexivity|vm_compute; reflexivity]|]. split; [vm_compute; reflexivity|].
  eexists _, _. split; [vm_compute; reflexivity|]. split; vm_compute; reflexivity.
Qed.
Print Assumptions C56_weight_exact_refuted.

(* Calls that meet the hypotheses, in a cache with several items: a write of the same weight, one of
   another weight, which weight() does not notice, and two items taken out of a draining iterator. *)
Example C56_example : let s := state_of 10 3 14 mixed in history 10 3 14 mixed (outs_of 10 3 14 mixed) s ∧
  (length (sh_iter s) > 2)%nat ∧
  match l_exec s (LGetMut (P:=H) 11%N (λ v : N, v + 2)%N) with
  | Ok (s', o) => o_ret o = RVal (P:=H) (Some 5%N) ∧ u_peek s' 11%N = Ok (Some 7%N) ∧ sh_weight s' = sh_weight s ∧
      sh_weight s' ≠ Ok (wsum (sh_iter s'))%N ∧
      match exec s' (CClear (P:=H)) with Ok (s2, _) => sh_weight s2 = Ok 0%N ∧ sh_len s2 = 0%N | Fail _ => False end
  | Fail _ => False
  end ∧
  match l_exec s (LDrain (P:=H) 2) with
  | Ok (s', o) => match o_ret o with RItems l => length l = 2%nat | _ => False end ∧ sh_len s' = 0%N
  | Fail _ => False
  end.
Proof. vm_compute. split_and!; first [done|reflexivity|congruence|lia]. Qed.
