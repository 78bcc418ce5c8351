(* For every point that is not harmless, a cache that a panic there breaks; and the facts about
   caches that survived panics which PropsCrash.v uses. *)
From Verif Require Export CrashProofs SeqProofs2 Demo Builds.

Global Instance point_eq_dec : EqDecision point.
Proof. solve_decision. Defined.

(* the history, the call that panics, and the calls that show it *)
Definition bad (s : shard W) (h : list (cmd W)) : bool :=
  negb (bool_decide (sh_len s = N.of_nat (length (sh_iter s)))) ||
  match sh_weight s with Ok w => negb (bool_decide (w = wsum (sh_iter s))) | Fail _ => false end ||
  match run s h with Fail Panic => true | _ => false end.
Lemma bad_broken s h : bad s h = true → broken s.
Proof.
  unfold bad, broken. rewrite !orb_true_iff. intros [[Hl|Hw]|Hr].
  - left. by apply negb_true_iff, bool_decide_eq_false in Hl.
  - right. left. destruct (sh_weight s) as [w|]; [|done]. exists w. by apply negb_true_iff, bool_decide_eq_false in Hw.
  - right. right. exists h. by destruct (run s h) as [|[]].
Qed.
Definition check (h : list (cmd W)) (m : cmd W) (p : point) (h' : list (cmd W)) : bool :=
  match run (sh_new 10 3 14) h with
  | Ok (s, os) => existsb (λ x, bool_decide (x.1 = p) && bad x.2 h') (c_exec s m).1
  | Fail _ => false
  end.
Lemma check_ok h m p h' : check h m p h' = true →
  ∃ os s s', history (P:=W) 10 3 14 h os s ∧ panicked s m p s' ∧ broken s'.
Proof.
  unfold check, history. destruct (run _ h) as [[s os]|] eqn:E; [|done].
  intros ([p' s'] & Hin & Hx)%existsb_exists. apply andb_true_iff in Hx as [Hp Hb]. apply bool_decide_eq_true in Hp. simpl in Hp. subst p'.
  exists os, s, s'. split; [done|]. split; [by apply elem_of_list_In|by eapply bad_broken].
Qed.
Definition wit (p : point) : list (cmd W) * cmd W * list (cmd W) :=
  let i k v := ins (P:=W) 0%N k v in
  match p with
  | PRefDrop => ([i 1 3], CGetMut (P:=W) 1 (λ v, v + 1), [])
  | PRemove => ([i 1 3], CRemove (P:=W) 1, [])
  | PReserveInPlace => ([i 1 3; i 2 4], CReserve (P:=W), [i 3 9; i 4 9])
  | PInsertGrow => ([i 1 3], i 2 4, [i 3 9; CGet (P:=W) 3; i 4 9])
  | PInsertInPlace => ([i 1 3], i 2 4, [i 3 9; i 4 9])
  | PUpsertInPlace => ([i 1 3; i 2 4], CGetOrInsert (P:=W) 0 3 None, [i 4 9])
  | PBefore | PReweigh | PEvHash => ([i 1 9], i 2 9, [])
  | PHotEvict => ([i 1 9], i 2 9, [CGet (P:=W) 1])
  | PPromote => ([i 1 9; i 2 5; CGet (P:=W) 2], i 3 9, [i 4 9])
  | PFill => ([i 1 9], CGetOrInsert (P:=W) 0 4 (Some 3), [i 4 3])
  | _ => ([i 1 9], i 1 7, [])
  end%N.
Lemma wit_ok p : harmless p = false → check (wit p).1.1 (wit p).1.2 p (wit p).2 = true.
Proof. by destruct p; intros H; try discriminate; vm_compute. Qed.

Section crashwit.
Context {P : Params} (LW : Lawful P).
Implicit Types (s : shard P) (c : contents P).
Lemma cfg_eq s s' : cfg s' = cfg s → sh_capacity s' = sh_capacity s ∧ sh_target_hot s' = sh_target_hot s.
Proof. unfold cfg. by intros [= ? ? ?]. Qed.
Lemma survived_inv budget ghosts cap s : survived budget ghosts cap s →
  Inv s ∧ sh_capacity s = cap ∧ sh_target_hot s = budget.
Proof.
  induction 1 as [|s m s' o _ (HI & Hc & Ht) E|s m p s' _ (HI & Hc & Ht) Hp Hh].
  - split; [apply sh_new_inv|done].
  - pose proof (exec_spec LW s m HI) as H. rewrite E in H. destruct H as [HI' Hcfg _ _ _ _ _ _].
    destruct (cfg_eq _ _ Hcfg). split_and!; congruence || done.
  - destruct (tr_exec LW s m HI _ _ Hp Hh) as (HI' & Hcfg & _).
    destruct (cfg_eq _ _ Hcfg). split_and!; congruence || done.
Qed.
Lemma after_panic budget ghosts cap s m p s' : survived budget ghosts cap s → panicked s m p s' → harmless p = true →
  if calm p then sh_iter s' ≡ₚ sh_iter s else
  match written m with Some (k, v) => partway (sh_iter s) k v (sh_iter s') | None => sh_iter s' ≡ₚ sh_iter s end.
Proof. intros Hs Hp Hh. destruct (survived_inv _ _ _ _ Hs) as [HI _]. by destruct (tr_exec LW s m HI _ _ Hp Hh) as (_ & _ & H). Qed.
(* other items are those from before, as the hooks left them; and pinned ones are all there *)
Lemma partway_other c k v c' k' v' : partway c k v c' → keqb P k k' = false → (k', v') ∈ c' →
  ∃ v0, (k', v0) ∈ c ∧ turned k' v0 v'.
Proof.
  intros (c0 & rs & es & rs' & He & Hs) Hk Hin. destruct (evicts_turned _ _ _ _ _ _ _ He Hin) as (v0 & Hin0 & Ht).
  exists v0. split; [|done]. destruct Hs as [Hs|[Hs|(kp & v1 & Hkp & _ & Hs)]]; rewrite Hs in Hin0.
  - done.
  - by apply elem_of_list_In, filter_In in Hin0 as [?%elem_of_list_In _].
  - apply elem_of_cons in Hin0 as [[= -> ->]|Hin0]; [congruence|]. by apply elem_of_list_In, filter_In in Hin0 as [?%elem_of_list_In _].
Qed.
Lemma partway_pinned c k v c' k' v' : partway c k v c' → keqb P k k' = false → (k', v') ∈ c → pinned P k' v' = true → (k', v') ∈ c'.
Proof.
  intros (c0 & rs & es & rs' & He & Hs) Hk Hin Hp. eapply evicts_stay; [done| |by right].
  assert ((k', v') ∈ del k c) as Hd.
  { apply elem_of_list_In, filter_In. split; [by apply elem_of_list_In|]. simpl. by rewrite Hk. }
  destruct Hs as [->|[->|(kp & v1 & _ & _ & ->)]]; [done|done|by right].
Qed.
End crashwit.
