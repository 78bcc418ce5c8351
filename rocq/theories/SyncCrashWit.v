(* Histories with panics in the sync cache, computed; and that no call has undefined behaviour. *)
From Verif Require Export SyncCrashCache DemoSync Builds.

Global Instance spoint_eq_dec : EqDecision spoint.
Proof. solve_decision. Defined.

Section wit.
Context {P : Params} (std : bool).
Implicit Types (c : pcache P) (m : scmd P) (x : pshard P).
(* a call that returns, or panics at the first of the given points *)
Definition p_next c (m : scmd P) (o : option spoint) : option (pevent P * pcache P) :=
  match o with
  | None => match (p_exec std c m).2 with Ok (c, r) => Some (Returned m r, c) | Fail _ => None end
  | Some q => match List.find (λ y, bool_decide (y.1 = q)) (p_exec std c m).1 with Some x => Some (Panicked m q, x.2) | None => None end
  end.
Fixpoint p_run c (l : list (scmd P * option spoint)) : option (list (pevent P) * pcache P) :=
  match l with
  | [] => Some ([], c)
  | (m, o) :: l =>
      match p_next c m o with
      | Some (ev, c) => match p_run c l with Some (h, c) => Some (ev :: h, c) | None => None end
      | None => None
      end
  end.
Definition p_ok (l : list (scmd P * option spoint)) : Prop :=
  Forall (λ '(m, o), api m ∧ match o with Some q => std = true ∨ harmless_at q = true | None => True end) l.
Lemma p_run_lived b g cap e l : ∀ h c h' c', lived std b g cap e h c → p_ok l → p_run c l = Some (h', c') → lived std b g cap e (h ++ h') c'.
Proof.
  induction l as [|[m o] l IH]; intros h c h' c' Hl Hok; simpl.
  - intros [= <- <-]. by rewrite app_nil_r.
  - apply Forall_cons in Hok as [[Hm Hq] Hok]. destruct (p_next c m o) as [[ev c1]|] eqn:E; [|done].
    destruct (p_run c1 l) as [[h2 c2]|] eqn:E2; [|done]. intros [= <- <-].
    replace (h ++ ev :: h2) with ((h ++ [ev]) ++ h2) by (by rewrite <-app_assoc). eapply IH; [|done|done].
    unfold p_next in E. destruct o as [q|].
    + destruct (List.find _ _) as [[q' x]|] eqn:Ef; [|done]. injection E as <- <-. apply find_some in Ef as [Hin Hb].
      apply bool_decide_eq_true in Hb. simpl in Hb. subst q'. eapply lv_panic; [done|done| |done]. by apply elem_of_list_In.
    + destruct (p_exec std c m).2 as [[c2' r]|] eqn:Ex; [|done]. injection E as <- <-. by eapply lv_call.
Qed.

(* ---- no undefined behaviour ---- *)
Lemma safe_locked {A} w x (f : shard P → Crash.M (shard P * A)) : safe (f (ps_shard x)).2 → safe (locked std w x f).2.
Proof.
  intros H. unfold locked. destruct (ps_poisoned x); [done|]. simpl. destruct (f (ps_shard x)).2 as [[??]|f'] eqn:E; [done|]. intros [= ->]. by apply H.
Qed.
Lemma safe_tbind {X A C} (t : T X A) (f : A → T X C) : safe t.2 → (∀ a, safe (f a).2) → safe (tbind t f).2.
Proof. intros H1 H2. rewrite tbind_2. by apply safe_bind. Qed.
Lemma safe_when {X} b (t : T X ()) : safe t.2 → safe (twhen b t).2.
Proof. by destruct b. Qed.
Lemma safe_p_plain x keyed (mc : cmd P) : sync_cmd mc = true → safe (p_plain std x keyed mc).2.
Proof.
  intros Hm. unfold p_plain. apply safe_tbind; [by apply safe_when|intros _]. apply safe_tbind; [by apply safe_when|intros _].
  apply safe_tbind; [apply safe_locked; rewrite er_inner by done; apply safe_exec|]. intros [??].
  apply safe_tbind; [by apply safe_when|intros _]. apply safe_tbind; [by apply safe_when|done].
Qed.
Lemma safe_p_value x k : safe (p_value_or_guard std x k).2.
Proof.
  unfold p_value_or_guard. apply safe_tbind; [done|intros _]. apply safe_tbind; [apply safe_locked; rewrite er_get; apply safe_get|].
  intros [x1 [v|]]; [by apply safe_tbind|]. apply safe_tbind; [apply safe_locked; rewrite er_upsert; apply safe_upsert|].
  intros [x2 [[t v]|[p [|]]]]; [by apply safe_tbind|done|]. destruct (SyncCrash.assoc (ph_id p) (ps_filled x2)); [by apply safe_tbind|done].
Qed.
Lemma safe_p_drop x p : safe (p_drop x p).
Proof. unfold p_drop. destruct (ps_poisoned x); [done|]. apply safe_bind; [apply safe_remove_placeholder|done]. Qed.
Lemma safe_p_insert x rs p v wl : safe (p_guard_insert std x rs p v wl).2.
Proof.
  unfold p_guard_insert. apply safe_tbind; [by apply safe_when|intros _]. apply safe_tbind; [done|intros _].
  apply safe_tbind.
  - apply safe_locked. unfold Crash.mbind. rewrite er_replace. pose proof (safe_replace (ps_shard (ps_fill x p v)) (Lcs rs []) p false v) as H.
    destruct (replace_placeholder _ _ _ _ _) as [[[??]?]|f]; [done|]. intros [= ->]. by apply H.
  - intros [x1 [l [v'|]]]; [done|]. by apply safe_tbind; [apply safe_when|].
Qed.
Lemma safe_ps x m : api m → safe (ps_exec std x m).2.
Proof.
  intros Hm. destruct m as [k mc|mc|rs k g|rs k w]; cbn [ps_exec].
  - apply safe_p_plain, Hm.
  - apply safe_p_plain. by destruct Hm as [->|[->|[f ->]]].
  - apply safe_tbind; [apply safe_p_value|]. intros [x1 [v|p]]; [done|]. destruct g as [v wl|]; simpl; [apply safe_p_insert|].
    apply safe_tbind; [apply safe_p_drop|done].
  - apply safe_tbind; [apply safe_p_value|]. intros [x1 [v|p]]; [done|]. apply safe_tbind; [done|intros _]. destruct w as [v|]; cbn [p_guard].
    + apply safe_tbind; [by intros ?|intros _]. apply safe_tbind; [apply safe_p_insert|by intros [??]].
    + apply safe_tbind; [|by intros [??]]. apply safe_tbind; [apply safe_p_drop|done].
Qed.
Lemma safe_p_exec c m : api m → safe (p_exec std c m).2.
Proof.
  intros Hm.
  assert (∀ c j, safe (at_shard std c j m).2) as Hat.
  { intros c' j. unfold at_shard. destruct (pc_shards c' !! j) as [x|]; [|done]. simpl. apply safe_bind; [by apply safe_ps|by intros [??]]. }
  unfold p_exec. destruct (key_of_call m) as [k|]; [apply Hat|]. apply safe_tbind; [|done].
  generalize (seq 0 (length (pc_shards c))). intros js. revert c. induction js as [|j js IH]; intros c; simpl; [done|].
  apply safe_tbind; [apply Hat|]. intros [c1 ?]. apply IH.
Qed.
End wit.

(* a value left behind: key 11 *)
Definition behind_call : scmd SW := SValueOrGuard (P:=SW) 0%N 11%N (SInsert (P:=SW) 4%N false).
Definition behind_calls : list (scmd SW) := [ sins (P:=SW) 0 1 3; sins (P:=SW) 0 2 4; SGetOrInsert (P:=SW) 0 6 (Some 2) ]%N.
Definition behind_hist : list (pevent SW) :=
  [ Returned (sins (P:=SW) 0%N 1%N 3%N) (Out (P:=SW) RUnit [LBegin (P:=SW) 0%N; LEnd (P:=SW) 0%N] false None);
    Returned (sins (P:=SW) 0%N 2%N 4%N) (Out (P:=SW) RUnit [LBegin (P:=SW) 0%N; LEnd (P:=SW) 0%N] false None);
    Returned (SGetOrInsert (P:=SW) 0%N 6%N (Some 2%N)) (Out (P:=SW) (RVal (P:=SW) (Some 2%N)) [LBegin (P:=SW) 0%N; LEnd (P:=SW) 0%N] true None) ].
Definition behind_list : list (scmd SW * option spoint) := ((λ m, (m, None)) <$> behind_calls) ++ [(behind_call, Some (SP PBegin))].
Definition behind_cache (std : bool) : pcache SW :=
  match p_run std (pc_fresh 10 3 14 1) behind_list with Some (_, c) => c | None => pc_fresh 10 3 14 1 end.
Definition behind_then (std : bool) (m : scmd SW) : pcache SW :=
  match (p_exec std (behind_cache std) m).2 with Ok (c, _) => c | Fail _ => behind_cache std end.
Lemma behind_runs std : p_run std (pc_fresh 10 3 14 1) behind_list = Some (behind_hist ++ [Panicked behind_call (SP PBegin)], behind_cache std).
Proof. destruct std; vm_compute; reflexivity. Qed.
Lemma behind_run std : ∃ c, lived std 10 3 14 1 (behind_hist ++ [Panicked behind_call (SP PBegin)]) c ∧
  forallb (λ x : pshard SW, forallb (λ p : K SW * V SW, negb (keqb SW p.1 11%N)) (sh_iter (ps_shard x))) (pc_shards c) = true ∧
  (∃ c', (p_exec std c (SKey (P:=SW) 11%N (CGet (P:=SW) 11%N))).2 = Ok (c', plain (RVal None))) ∧
  (∃ c', (p_exec std c (SValueOrGuard (P:=SW) 0%N 11%N SDrop)).2 = Ok (c', plain (P:=SW) (RVal (P:=SW) (Some 4%N)))).
Proof.
  exists (behind_cache std). split; [|split_and!].
  - eapply (p_run_lived std 10 3 14 1 behind_list []); [constructor| |apply behind_runs].
    unfold p_ok, behind_list, behind_calls, sins. simpl. repeat (apply Forall_cons; split; [by split; simpl; eauto|]). by apply Forall_nil.
  - destruct std; vm_compute; reflexivity.
  - exists (behind_then std (SKey (P:=SW) 11%N (CGet (P:=SW) 11%N))). destruct std; vm_compute; reflexivity.
  - exists (behind_then std (SValueOrGuard (P:=SW) 0%N 11%N SDrop)). destruct std; vm_compute; reflexivity.
Qed.
