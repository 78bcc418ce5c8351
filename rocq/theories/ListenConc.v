(* The concurrent sync cache does the same for all request states: a step-by-step simulation. *)
From Verif Require Export ListenConcSpec ListenState.

Section listenconc.
Context {P : Params} (SB : state_blind P).
Implicit Types (y : sys P) (a b j : nat) (p : plh).

Definition nmsim (x x' : nmode P) : Prop :=
  match x, x' with NIns _ v wl r, NIns _ v' wl' r' => v' = v ∧ wl' = wl ∧ r' = r | NDrop, NDrop => True | _, _ => False end.
Inductive pcsim : pc P → pc P → Prop :=
  | pi_refl x : pcsim x x
  | pi_want j m r : pcsim (PWant j m) (PWant j (restate r m))
  | pi_in j m r : pcsim (PIn j m) (PIn j (restate r m))
  | pi_all m r js : pcsim (PAll m js) (PAll (restate r m) js)
  | pi_allin m r j js : pcsim (PAllIn m j js) (PAllIn (restate r m) j js)
  | pi_iwant j p rs r v wl : pcsim (IWant j p rs v wl) (IWant j p r v wl)
  | pi_iin j p rs r v wl : pcsim (IIn j p rs v wl) (IIn j p r v wl)
  | pi_ngo j p ws nm nm' : nmsim nm nm' → pcsim (NGo j p ws nm) (NGo j p ws nm')
  | pi_nunpark j p b ws nm nm' : nmsim nm nm' → pcsim (NUnpark j p b ws nm) (NUnpark j p b ws nm')
  | pi_ntask j p b ws nm nm' : nmsim nm nm' → pcsim (NTask j p b ws nm) (NTask j p b ws nm')
  | pi_fwant j p rs r v wl ref : pcsim (FillWant j p rs v wl ref) (FillWant j p r v wl ref)
  | pi_fin j p rs r v wl ref : pcsim (FillIn j p rs v wl ref) (FillIn j p r v wl ref)
  | pi_done r r' : same_kret r r' → pcsim (ADone r) (ADone r').
Inductive asim : agent P → agent P → Prop :=
  | asim_intro c c' t x x' f k w o : same_kcall c c' → pcsim x x' → asim (Agent c t x f k w o) (Agent c' t x' f k w o).
Inductive ysim : sys P → sys P → Prop :=
  | ysim_intro c ph ags ags' t L L' : Forall2 asim ags ags' → Forall2 same_entry L L' → ysim (Sys c ph ags t L) (Sys c ph ags' t L').

Lemma bs_restate (m : cmd P) r : same_plain m (restate r m). Proof. right. by exists r. Qed.
Lemma bs_refl (m : cmd P) : same_plain m m. Proof. by left. Qed.
Lemma kret_refl (r : Conc.ret P) : same_kret r r. Proof. destruct r; try done; apply seen_refl. Qed.
Lemma nm_refl (x : nmode P) : nmsim x x. Proof. by destruct x. Qed.
Lemma y_cache_sim y y' : ysim y y' → y_cache y' = y_cache y. Proof. by intros []. Qed.
Lemma y_ph_sim y y' : ysim y y' → y_ph y' = y_ph y. Proof. by intros []. Qed.
Lemma y_now_sim y y' : ysim y y' → y_now y' = y_now y. Proof. by intros []. Qed.
Lemma y_len_sim y y' : ysim y y' → length (y_agents y') = length (y_agents y). Proof. intros [?????? ? HF _]. cbn. symmetry. by eapply Forall2_length. Qed.
Lemma read_sim y y' j : ysim y y' → read_shard y' j = read_shard y j. Proof. by intros []. Qed.
Lemma load_sim y y' l : ysim y y' → at_load y' l = at_load y l. Proof. by intros []. Qed.
Lemma wait_sim y y' l : ysim y y' → waiting_on y' l = waiting_on y l. Proof. by intros []. Qed.
Lemma s_cache y y' c : ysim y y' → ysim (with_cache y c) (with_cache y' c). Proof. intros []. by constructor. Qed.
Lemma s_put y y' j s : ysim y y' → ysim (put_shard y j s) (put_shard y' j s).
Proof. intros H. unfold put_shard. rewrite (y_cache_sim _ _ H). by apply s_cache. Qed.
Lemma s_ph y y' l x : ysim y y' → ysim (with_ph y l x) (with_ph y' l x). Proof. intros []. by constructor. Qed.
Lemma s_log y y' a e e' : ysim y y' → same_event e e' → ysim (logged y a e) (logged y' a e').
Proof. intros [] He. constructor; [done|]. cbn. apply Forall2_app; [done|]. by repeat constructor. Qed.
Lemma s_agent y y' a f g : ysim y y' → (∀ x x', asim x x' → asim (f x) (g x')) → ysim (with_agent y a f) (with_agent y' a g).
Proof. intros [] Hf. constructor; [|done]. cbn. apply Forall2_alter; [done|]. intros; by apply Hf. Qed.
Lemma s_goto y y' a x x' : ysim y y' → pcsim x x' → ysim (goto y a x) (goto y' a x').
Proof. intros H Hx. apply s_agent; [done|]. intros ? ? []. by constructor. Qed.
Lemma s_flag y y' a (b : bool) : ysim y y' → ysim (with_agent y a (set_flag b)) (with_agent y' a (set_flag b)).
Proof. intros H. apply s_agent; [done|]. intros ? ? []. by constructor. Qed.
Lemma s_token y y' a (b : bool) : ysim y y' → ysim (with_agent y a (set_token b)) (with_agent y' a (set_token b)).
Proof. intros H. apply s_agent; [done|]. intros ? ? []. by constructor. Qed.
Lemma s_waker y y' a (b : N) : ysim y y' → ysim (with_agent y a (set_waker b)) (with_agent y' a (set_waker b)).
Proof. intros H. apply s_agent; [done|]. intros ? ? []. by constructor. Qed.
Lemma s_fin y y' a r r' : ysim y y' → same_kret r r' → ysim (finish y a r) (finish y' a r').
Proof. intros H Hr. apply s_log; [|done]. apply s_goto; [done|]. by constructor. Qed.
Lemma s_note y y' a b : ysim y y' → ysim (note_thread y a b) (note_thread y' a b).
Proof. intros H. apply s_log; [|done]. by apply s_flag. Qed.
Lemma s_notet y y' a b : ysim y y' → ysim (note_task y a b) (note_task y' a b).
Proof. intros H. apply s_log; [|done]. apply s_agent; [done|]. intros ? ? []. by constructor. Qed.
Lemma s_startd y y' a j p sm : ysim y y' → ysim (start_done y a j p sm) (start_done y' a j p sm).
Proof. intros H. destruct sm; cbn; first [apply s_goto; [done|constructor]|apply s_log; [|done]; apply s_goto; [done|constructor]]. Qed.
Lemma s_start dbg y y' a j p sm : ysim y y' → ysim (start_loading dbg y a j p sm) (start_loading dbg y' a j p sm).
Proof. intros H. destruct dbg; cbn; [apply s_goto; [done|constructor]|by apply s_startd]. Qed.
Definition secq (u u' : sys P * xret P) : Prop := ysim u.1 u'.1 ∧ xsame u.2 u'.2.
Lemma op_restate (x : sect P) r : same_op (op_of x) (op_of (x_restate r x)).
Proof. destruct x; cbn; try done. apply bs_restate. Qed.
Lemma op_refl (x : sop P) : same_op x x. Proof. destruct x; cbn; try done. apply bs_refl. Qed.
Lemma res_same (x x' : xret P) : xsame x x' → same_res (res_of x) (res_of x').
Proof. destruct x, x'; cbn; intros H; try done; by injection H as ->. Qed.
Lemma ev_refl (e : cevent P) : same_event e e.
Proof.
  destruct e as [c|j x r|l|l v|l b|l|b|l|r]; try done; [destruct c; try done; apply bs_refl| |apply kret_refl].
  split_and!; [done|apply op_refl|]. destruct r; try done; apply seen_refl.
Qed.
Lemma s_section y y' a j x r : ysim y y' → rel secq (section y a j x) (section y' a j (x_restate r x)).
Proof.
  intros H. unfold section. rewrite (y_cache_sim _ _ H). unfold on_shard. destruct (unwrap _) as [s|]; [|constructor]. cbn [rbind].
  pose proof (q_xexec SB s x r) as HR. inversion HR as [[s1 o1] [s2 o2] [Hs Ho] E1 E2|f E1 E2]; [|constructor]. cbn in *. subst.
  constructor. split; [|done]. apply s_log; [by apply s_cache|]. cbn. split_and!; [done|apply op_restate|by apply res_same].
Qed.
Lemma s_section' y y' a j x : ysim y y' → rel secq (section y a j x) (section y' a j x).
Proof.
  intros H. unfold section. rewrite (y_cache_sim _ _ H). apply rel_same. intros [c o]. constructor. split; [|apply xsame_refl].
  apply s_log; [by apply s_cache|]. cbn. split_and!; [done|apply op_refl|apply res_same, xsame_refl].
Qed.
Definition orel (u u' : option (res (sys P))) : Prop :=
  match u, u' with Some x, Some x' => rel ysim x x' | None, None => True | _, _ => False end.
Ltac sy := repeat first
  [ assumption
  | apply s_note | apply s_notet | apply s_startd | apply s_start
  | apply s_fin; [|first [apply kret_refl|done]]
  | apply s_goto; [|first [constructor; first [done|apply nm_refl]|constructor]]
  | apply s_log; [|first [done|apply ev_refl]]
  | apply s_put | apply s_ph | apply s_cache | apply s_flag | apply s_token | apply s_waker ].
Lemma s_found y y' a j k c : ysim y y' → rel ysim (get_found y a j k c) (get_found y' a j k c).
Proof.
  intros H. unfold get_found. rewrite (read_sim _ _ _ H). do 2 (apply rel_same; intros ?). cbv zeta.
  match goal with |- rel _ (match ?o with _ => _ end) _ => destruct o as [[i r]|] end; constructor; sy.
Qed.
Lemma s_hit y y' a j v c : ysim y y' → rel ysim (get_hit y a j v c) (get_hit y' a j v c).
Proof. intros H. unfold get_hit. rewrite (read_sim _ _ _ H). apply rel_same. intros s. cbv zeta. constructor. sy. Qed.
Lemma s_miss y y' a j k c : ysim y y' → rel ysim (get_miss y a j k c) (get_miss y' a j k c).
Proof. intros H. unfold get_miss. rewrite (read_sim _ _ _ H). apply rel_same. intros s. cbv zeta. constructor. destruct c; sy. Qed.
Lemma s_push y y' a j p md : ysim y y' → rel ysim (push_waiter y a j p md) (push_waiter y' a j p md).
Proof.
  intros H. unfold push_waiter. rewrite (load_sim _ _ _ H), (wait_sim _ _ _ H). destruct (at_load _ _); [|constructor; sy|constructor].
  cbv zeta. constructor. destruct md as [[to|]|wk]; sy.
Qed.
Lemma s_leave y y' j p w : ysim y y' → rel ysim (Conc.leave y j p w) (Conc.leave y' j p w).
Proof. intros H. unfold Conc.leave. rewrite (load_sim _ _ _ H), (wait_sim _ _ _ H). apply rel_same. intros [i ?]. constructor. sy. Qed.
Lemma s_act dbg y y' a ag ag' : ysim y y' → asim ag ag' → orel (act dbg y a ag) (act dbg y' a ag').
Proof.
  intros H [c c' t x x' f k w o Hc Hx]. unfold act. cbn [a_pc a_token a_flag].
  destruct Hx as [x|j m r|j m r|m r js|m r j js|j p rs r v wl|j p rs r v wl|j p ws nm nm' Hn|j p b ws nm nm' Hn|j p b ws nm nm' Hn|j p rs r v wl ref|j p rs r v wl ref|r r' Hr].
  - destruct x; try exact I.
    + (* PIn *) cbn [orel]. eapply rel_bind; [by apply s_section'|]. intros [y1 o1] [y2 o2] [H1 Ho]. cbn in *.
      destruct o1, o2; try discriminate Ho; constructor. by apply s_fin.
    + destruct js; [|exact I]. constructor. sy.
    + cbn [orel]. eapply rel_bind; [by apply s_section'|]. intros [y1 o1] [y2 o2] [H1 Ho]. cbn in *. constructor. sy.
    + by apply s_found.
    + cbn [orel]. rewrite (read_sim _ _ _ H). do 2 (apply rel_same; intros ?). constructor. sy.
    + by apply s_hit.
    + by apply s_miss.
    + cbn [orel]. eapply rel_bind; [by apply s_section'|]. intros [y1 o1] [y2 o2] [H1 Ho]. cbn in *.
      destruct o1, o2; try discriminate Ho; try (injection Ho as <-); constructor; sy.
    + cbn [orel]. rewrite (load_sim _ _ _ H). destruct (at_load _ _); constructor; sy.
    + by apply s_push.
    + cbn [orel]. rewrite (y_now_sim _ _ H). constructor. sy.
    + destruct k; [|exact I]. constructor. sy.
    + constructor. sy.
    + cbn [orel]. rewrite (y_now_sim _ _ H). constructor. sy.
    + cbn [orel]. destruct f; [constructor; sy|]. eapply rel_bind; [by apply s_leave|]. intros y1 y2 H1. constructor. sy.
    + cbn [orel]. rewrite (load_sim _ _ _ H). destruct (at_load _ _); constructor; sy.
    + cbn [orel]. constructor. destruct f; sy.
    + cbn [orel]. destruct f; [rewrite (load_sim _ _ _ H); destruct (at_load _ _); constructor; sy|].
      eapply rel_bind; [by apply s_leave|]. intros y1 y2 H1. constructor. sy.
    + cbv zeta. cbn [orel]. rewrite (wait_sim _ _ _ H). constructor. sy.
    + destruct ws as [|[b [|]] ws]; [destruct nm| |]; try exact I; constructor; sy.
    + constructor. sy.
    + constructor. sy.
    + cbn [orel]. eapply rel_bind; [by apply s_section'|]. intros [y1 o1] [y2 o2] [H1 Ho]. cbn in *.
      destruct o1, o2; try discriminate Ho; try (injection Ho as <-); constructor; sy.
    + cbn [orel]. rewrite (load_sim _ _ _ H), (wait_sim _ _ _ H). destruct (list.last _).
      * apply rel_same. intros _. constructor. sy.
      * cbv zeta. eapply rel_bind; [apply s_section'; by apply s_ph|]. intros [y1 o1] [y2 o2] [H1 Ho]. cbn in *. constructor. sy.
  - exact I.
  - cbn [orel]. eapply rel_bind; [by apply (s_section _ _ _ _ (XCmd m) r)|]. intros [y1 o1] [y2 o2] [H1 Ho]. cbn in *.
    destruct o1, o2; try discriminate Ho; constructor. by apply s_fin.
  - destruct js; [|exact I]. constructor. sy.
  - cbn [orel]. eapply rel_bind; [by apply (s_section _ _ _ _ (XCmd m) r)|]. intros [y1 o1] [y2 o2] [H1 Ho]. cbn in *. constructor. sy.
  - exact I.
  - cbv zeta. cbn [orel]. rewrite (wait_sim _ _ _ H). constructor. sy.
  - destruct ws as [|[b [|]] ws]; [destruct nm, nm'; try done| |]; try exact I; constructor; try by sy.
    destruct Hn as (-> & -> & ->). sy.
  - constructor. sy.
  - constructor. sy.
  - exact I.
  - cbn [orel]. eapply rel_bind; [by apply (s_section _ _ _ _ (XFill rs p ref v wl) r)|]. intros [y1 o1] [y2 o2] [H1 Ho]. cbn in *.
    destruct o1, o2; try discriminate Ho; try (injection Ho as <-); constructor; by sy.
  - exact I.
Qed.

Lemma reads_restate r (m : cmd P) : reads (restate r m) = reads m. Proof. by destruct m. Qed.
Lemma n_holds_sim j p nm nm' : nmsim nm nm' → n_holds j p nm' = n_holds j p nm. Proof. by destruct nm, nm'. Qed.
Lemma holds_sim a x x' : pcsim x x' → holds a x' = holds a x.
Proof. intros []; cbn; try done; try (by rewrite reads_restate); by erewrite n_holds_sim. Qed.
Lemma wants_sim a x x' : pcsim x x' → wants a x' = wants a x.
Proof. intros []; cbn; try done; by rewrite reads_restate. Qed.
Lemma entered_sim x x' : pcsim x x' → pcsim (entered x) (entered x').
Proof.
  intros [ | | |m r js| | | |j p ws nm nm' Hn| | | | | ]; cbn; try by constructor.
  - destruct js; by constructor.
  - destruct ws as [|[b [|]] ws]; by constructor.
Qed.
Lemma free_sim y y' l : ysim y y' → free y' l = free y l.
Proof.
  intros [c ph ags ags' t L L' HF _]. unfold free. cbn.
  assert (∀ n, forallb (λ '(b, ag), forallb (compat l) (holds b (a_pc ag))) (imap (λ i, pair (n + i)) ags')
    = forallb (λ '(b, ag), forallb (compat l) (holds b (a_pc ag))) (imap (λ i, pair (n + i)) ags)) as E; [|exact (E 0)].
  induction HF as [|x x' ags ags' Hx _ IH]; intros n; [done|]. cbn. f_equal.
  - destruct Hx as [????? ???? _ Hx]. cbn. by rewrite (holds_sim _ _ _ Hx).
  - specialize (IH (S n)). assert (∀ L : list (agent P), imap ((λ i, pair (n + i)) ∘ S) L = imap (λ i, pair (S n + i)) L) as EL.
    { intros L0. apply imap_ext. intros i z _. cbn. f_equal. lia. }
    by rewrite !EL.
Qed.
Lemma agents_sim y y' a : ysim y y' → match y_agents y !! a, y_agents y' !! a with Some x, Some x' => asim x x' | None, None => True | _, _ => False end.
Proof.
  intros [c ph ags ags' t L L' HF _]. cbn. destruct (ags !! a) as [x|] eqn:E.
  - destruct (Forall2_lookup_l _ _ _ _ _ HF E) as (x' & -> & Hx). done.
  - apply lookup_ge_None in E. rewrite (Forall2_length _ _ _ HF) in E. by rewrite (proj2 (lookup_ge_None _ _) E).
Qed.
Lemma s_go dbg y y' a : ysim y y' → orel (go dbg y a) (go dbg y' a).
Proof.
  intros H. unfold go. pose proof (agents_sim _ _ a H) as HA. destruct (y_agents y !! a) as [ag|], (y_agents y' !! a) as [ag'|]; try done.
  assert (pcsim (a_pc ag) (a_pc ag')) as Hx by (by destruct HA). rewrite (wants_sim _ _ _ Hx). destruct (wants a (a_pc ag)) as [l|].
  - rewrite (free_sim _ _ _ H). destruct (free y l); [|done]. constructor. apply s_goto; [done|]. by apply entered_sim.
  - by apply s_act.
Qed.
Lemma s_first y y' c c' : ysim y y' → same_kcall c c' →
  match first_pc y c, first_pc y' c' with Some x, Some x' => rel pcsim x x' | None, None => True | _, _ => False end.
Proof.
  intros H Hc.
  assert (∀ c, match first_pc y c, first_pc y' c with Some x, Some x' => rel pcsim x x' | None, None => True | _, _ => False end) as Hr.
  { intros c0. unfold first_pc. rewrite (y_cache_sim _ _ H). destruct c0 as [m|k to|k].
    - destruct (sync_cmd m); [|done]. destruct (key_of m); [|repeat constructor]. apply rel_same. intros j. repeat constructor.
    - apply rel_same. intros j. repeat constructor.
    - apply rel_same. intros j. repeat constructor. }
  destruct c as [m| |], c' as [m'| |]; cbn in Hc; try discriminate Hc; try (injection Hc as -> ->; apply Hr); try (injection Hc as ->; apply Hr).
  destruct Hc as [->|[r ->]]; [apply Hr|]. destruct m; try apply (Hr (KCmd _)); cbn -[shard_for]; try done;
    rewrite (y_cache_sim _ _ H); (destruct (unwrap (shard_for _ _)) as [j0|]; [|constructor]); constructor.
  - exact (pi_want j0 (CReplace rs k v soft wl) r).
  - exact (pi_want j0 (CInsert rs k v wl) r).
Qed.
Lemma s_add y y' g g' : ysim y y' → asim g g' → ysim (add_agent y g) (add_agent y' g').
Proof. intros [] Hg. constructor; [|done]. cbn. apply Forall2_app; [done|]. by repeat constructor. Qed.
Ltac look H a := pose proof (agents_sim _ _ a H) as HA; match type of HA with match ?u with _ => _ end => destruct u as [ag|] end;
  match type of HA with match ?u with _ => _ end => destruct u as [ag'|] | _ => idtac end.
Lemma s_cstep dbg y y' lb lb' : ysim y y' → same_label lb lb' → orel (cstep dbg y lb) (cstep dbg y' lb').
Proof.
  intros H Hl.
  assert (∀ a, match a_pc <$> y_agents y !! a, a_pc <$> y_agents y' !! a with Some x, Some x' => pcsim x x' | None, None => True | _, _ => False end) as HA.
  { intros a. pose proof (agents_sim _ _ a H) as HA. destruct (y_agents y !! a), (y_agents y' !! a); try done. cbn. by destruct HA. }
  destruct lb as [c|a|a|d|a wk|a|a rs v wl|a], lb' as [c'|a'|a'|d'|a' wk'|a'|a' rs' v' wl'|a']; cbn in Hl; try discriminate Hl; try done.
  - cbn [cstep]. pose proof (s_first _ _ _ _ H Hl) as HF. destruct (first_pc y c) as [x|], (first_pc y' c') as [x'|]; try done.
    cbn [orel]. eapply rel_bind; [exact HF|]. intros u u' Hu. constructor. rewrite (y_len_sim _ _ H), (y_now_sim _ _ H).
    apply s_log; [|done]. apply s_add; [done|]. by constructor.
  - injection Hl as ->. by apply s_go.
  - injection Hl as ->. cbn [cstep]. specialize (HA a). destruct (a_pc <$> _), (a_pc <$> _); try done. destruct HA as [x| | | | | | | | | | | | ]; try done.
    destruct x; try done. constructor. sy.
  - injection Hl as ->. cbn [cstep]. constructor. destruct H. by constructor.
  - injection Hl as -> ->. cbn [cstep]. specialize (HA a). destruct (a_pc <$> _), (a_pc <$> _); try done. destruct HA as [x| | | | | | | | | | | | ]; try done.
    destruct x; try done; constructor; sy.
  - injection Hl as ->. cbn [cstep]. specialize (HA a). destruct (a_pc <$> _), (a_pc <$> _); try done. destruct HA as [x| | | | | | | | | | | | ]; try done.
    destruct x; try done; constructor; sy.
  - destruct Hl as (-> & -> & ->). cbn [cstep]. specialize (HA a). destruct (a_pc <$> _), (a_pc <$> _); try done. destruct HA as [x| | | | | | | | | | | | ]; try done.
    destruct x; try done; constructor; sy.
  - injection Hl as ->. cbn [cstep]. specialize (HA a). destruct (a_pc <$> _), (a_pc <$> _); try done. destruct HA as [x| | | | | | | | | | | | ]; try done.
    destruct x; try done; constructor; sy.
Qed.
Lemma s_steps dbg y ls y1 : steps dbg y ls y1 → ∀ y' ls', ysim y y' → Forall2 same_label ls ls' → ∃ y1', steps dbg y' ls' y1' ∧ ysim y1 y1'.
Proof.
  induction 1 as [y|y ls y1 lb y2 _ IH Hs]; intros y' ls' H HF.
  - inversion HF; subst. exists y'. split; [constructor|done].
  - apply Forall2_app_inv_l in HF as (ls1 & l2 & HF1 & HF2 & ->). inversion HF2 as [|? lb' ? ? Hl HN]; subst. inversion HN; subst.
    destruct (IH _ _ H HF1) as (y1' & Hs1 & H1). pose proof (s_cstep dbg _ _ _ _ H1 Hl) as HO. rewrite Hs in HO.
    destruct (cstep dbg y1' lb') as [u|] eqn:E; [|done]. cbn in HO. inversion HO as [? y2' H2|]; subst. exists y2'. split; [|done]. by econstructor.
Qed.
Lemma s_next dbg y y' a : ysim y y' →
  (go dbg y' a = None ↔ go dbg y a = None) ∧ ∀ f, go dbg y' a = Some (Fail f) ↔ go dbg y a = Some (Fail f).
Proof.
  intros H. pose proof (s_go dbg _ _ a H) as HO. destruct (go dbg y a) as [u|], (go dbg y' a) as [u'|]; try done.
  cbn in HO. destruct HO as [? ? _|f0]; split; try done.
Qed.
Lemma ysim_parts y y' : ysim y y' → y_cache y' = y_cache y ∧ Forall2 same_entry (y_log y) (y_log y').
Proof. by intros []. Qed.
Lemma ysim_refl_new budget ghosts cap e : ysim (sys_new budget ghosts cap e) (sys_new budget ghosts cap e).
Proof. by constructor. Qed.
End listenconc.
