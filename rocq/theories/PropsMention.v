(* C15 continued: a key that is new to the cache is cached by its insert. The vocabulary is in
   PropSpec.v, SyncSpec.v and Mention.v. *)
From Verif Require Import MentionProofs SeqProofs SyncSeq Demo DemoSync.

(* If, since the cache was created or last emptied, no call offered a key with the hash of k,
   then an insert of k that is not refused ends with the value cached, whatever is cached or
   pending, however full the cache is and whatever the hooks do. *)
Theorem C15_new_key_is_cached : ∀ (P : Params), Lawful P →
  ∀ budget ghosts cap (h1 h2 : list (cmd P)) os s rs k v wl s' o,
  history budget ghosts cap (h1 ++ h2) os s →
  (h1 = [] ∨ ∃ h0 c, h1 = h0 ++ [c] ∧ empties c) →
  (∀ c k', c ∈ h2 → offers c k' → hash P k' ≠ hash P k) →
  exec s (CInsert rs k v wl) = Ok (s', o) → ¬ refused budget rs k v →
  u_peek s' k = Ok (Some (stored budget rs k v)).
Proof.
  intros P LW budget ghosts cap h1 h2 os s rs k v wl s' o H He Hk Hx Hr.
  pose proof (history_new _ _ _ _ _ _ _ k H He Hk) as Hu. destruct (history_inv LW _ _ _ _ _ _ H) as [HI Hc].
  unfold cfg in Hc. injection Hc as Hc1 _ _. destruct (admission budget rs k v) as [[[rs1 es] v1] b] eqn:Ha.
  assert (b = false) as ->. { destruct b; [|done]. destruct Hr. by eapply admission_refused. }
  pose proof (insert_fresh LW s rs k v wl s' o HI Hu) as Hf. rewrite Hc1, Ha in Hf. simpl in Hf.
  destruct (history_step LW _ _ _ _ _ _ _ _ _ H Hx) as (Hs & _ & _). pose proof (st_inv _ _ _ _ Hs) as HI'.
  unfold u_peek. rewrite (sh_peek_spec LW s' k HI'). f_equal. apply (value_in LW); [by apply (inv_ukeys LW)|].
  exists k. rewrite <-(admission_stored _ _ _ _ _ _ _ _ Ha). split; [by apply Hf|apply (keqb_refl _ LW)].
Qed.
Print Assumptions C15_new_key_is_cached.

(* The same for the sync cache. *)
Theorem C15_sync_new_key_is_cached : ∀ (P : Params), Lawful P → ptr_ids P = true →
  ∀ budget ghosts cap e (h1 h2 : list (scmd P)) os c rs k v wl c' o,
  s_history budget ghosts cap e (h1 ++ h2) os c →
  (h1 = [] ∨ ∃ h0, h1 = h0 ++ [SAll CClear]) →
  (∀ m k', m ∈ h2 → s_offers m k' → hash P k' ≠ hash P k) →
  sc_exec c (SKey k (CInsert rs k v wl)) = Ok (c', o) → ¬ refused budget rs k v →
  (k, stored budget rs k v) ∈ sc_items c'.
Proof.
  intros P LW PI budget ghosts cap e h1 h2 os c rs k v wl c' o H He Hk Hx Hr.
  destruct (keyed_step LW PI _ _ _ _ _ _ _ (SKey k (CInsert rs k v wl)) k _ _ H ltac:(done) eq_refl Hx) as (s & s' & Hs & -> & Hse & HI & Hok & E1 & E2).
  assert (untracked s k) as Hu.
  { intros t. eapply (s_history_new _ _ _ _ h1 h2); [exact (proj2 H)|done|done|by eapply elem_of_list_lookup_2]. }
  destruct (admission budget rs k v) as [[[rs1 es] v1] b] eqn:Ha.
  assert (b = false) as ->. { destruct b; [|done]. destruct Hr. by eapply admission_refused. }
  pose proof (insert_fresh LW s rs k v wl s' o HI Hu) as Hf. rewrite E2, Ha in Hf. simpl in Hf.
  destruct (items_split c _ s Hs) as (rest & _ & H2). rewrite (H2 s'), <-(admission_stored _ _ _ _ _ _ _ _ Ha).
  apply elem_of_app. left. by apply Hf.
Qed.
Print Assumptions C15_sync_new_key_is_cached.

(* After a clear key 3 is new again: the cache is full of other items when it is inserted. *)
Example C15_new_example :
  let h1 := [ins (P:=W) 0 3 5; CGet (P:=W) 3; CClear (P:=W)]%N in
  let h2 := [ins (P:=W) 0 1 5; CGet (P:=W) 1; ins (P:=W) 0 2 5; CGet (P:=W) 3; CRemove (P:=W) 3]%N in
  (∃ h0 c, h1 = h0 ++ [c] ∧ empties c) ∧ (∀ c k', c ∈ h2 → offers c k' → hash W k' ≠ hash W 3%N) ∧
  (∃ os, history (P:=W) 9%N 3%N 10%N (h1 ++ h2) os (state_of 9 3 10 (h1 ++ h2))) ∧ ¬ refused (P:=W) 9%N 0%N 3%N 9%N ∧
  match exec (state_of 9 3 10 (h1 ++ h2)) (ins (P:=W) 0 3 9)%N with Ok (s', o) => u_peek (P:=W) s' 3%N = Ok (Some 9%N) | Fail _ => False end.
Proof.
  split; [by eexists [_; _], _|]. split.
  { intros c k' Hc. repeat (apply elem_of_cons in Hc as [->|Hc]; [by try (intros ->)|]). by apply elem_of_nil in Hc. }
  split; [eexists; vm_compute; reflexivity|]. split; [unfold refused; simpl; lia|]. vm_compute. reflexivity.
Qed.
(* key 4 is new; its shard is full when it is inserted *)
Example C15_sync_new_example :
  s_history (P:=SW) 6%N 3%N 8%N 1%N ([] ++ splain) (souts_of 6 3 8 1 splain) (sstate_of 6 3 8 1 splain) ∧
  (∀ m k', m ∈ splain → s_offers m k' → hash SW k' ≠ hash SW 4%N) ∧ ¬ refused (P:=SW) 6%N 0%N 4%N 6%N ∧
  match sc_exec (sstate_of 6 3 8 1 splain) (sins (P:=SW) 0 4 6)%N with Ok (c', o) => bool_decide ((4, 6)%N ∈ sc_items (P:=SW) c') = true | Fail _ => False end.
Proof.
  split; [split; [apply splain_api|vm_compute; reflexivity]|]. split.
  { intros m k' Hm. unfold splain, sins in Hm. repeat (apply elem_of_cons in Hm as [->|Hm]; [intros Hk; simpl in Hk; try done; subst k'; by vm_compute|]). by apply elem_of_nil in Hm. }
  split; [unfold refused; simpl; lia|]. vm_compute. reflexivity.
Qed.
