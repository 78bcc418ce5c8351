(* The concurrent cache in both builds, and with user code that breaks its contract. *)
From stdpp Require Import prelude list functions.
From Verif Require Export Builds Conc.

(* ---- debug and release ---- *)
(* the steps of the debug build are steps of the release build *)
Definition kept_step {A} (m m' : option (res A)) : Prop :=
  match m, m' with None, None => True | Some r, Some r' => kept r r' | _, _ => False end.
Section kept3.
Context {P : Params}.
Notation sys := (sys P). Notation D := debug. Notation R := release.
Implicit Types (y : sys) (a j : nat).
Lemma kept_section y a j x : kept (section (B:=D) y a j x) (section (B:=R) y a j x).
Proof. unfold section. apply kept_bind; [apply kept_on_shard|]. intros []. apply kept_refl. Qed.
Lemma kept_act dbg y a ag : kept_step (act (B:=D) dbg y a ag) (act (B:=R) dbg y a ag).
Proof.
  unfold act. destruct (a_pc ag); cbn [kept_step]; try exact I.
  all: try match goal with |- kept ?m ?m => exact (kept_refl m) end.
  all: try (apply kept_bind; [apply kept_section|]; intros [? ?]; match goal with |- kept ?m ?m => exact (kept_refl m) end).
  - destruct js; [apply kept_refl|done].
  - destruct (a_token ag); [apply kept_refl|done].
  - destruct ws as [|[? []]]; try exact I; destruct nm; apply kept_refl.
  - destruct (list.last _); [apply kept_refl|]. apply kept_bind; [apply kept_section|]. intros [? ?]. apply kept_refl.
Qed.
Lemma kept_cstep dbg y lb : kept_step (cstep (B:=D) dbg y lb) (cstep (B:=R) dbg y lb).
Proof.
  assert (∀ m : option (res sys), kept_step m m) as Hr by (intros [r|]; [apply kept_refl|done]).
  destruct lb; cbn [cstep]; try match goal with |- kept_step ?m ?m => exact (Hr m) end. unfold go. destruct (y_agents y !! a) as [ag|]; [|done]. destruct (wants a (a_pc ag)); [apply Hr|apply kept_act].
Qed.
Lemma release_step dbg y lb y' : cstep (B:=D) dbg y lb = Some (Ok y') → cstep (B:=R) dbg y lb = Some (Ok y').
Proof.
  intros H. pose proof (kept_cstep dbg y lb) as Hk. rewrite H in Hk. destruct (cstep (B:=R) dbg y lb); [|done].
  destruct Hk as [Hk|[Hk|Hk]]; [done..|by rewrite Hk].
Qed.
Lemma release_steps dbg y ls y' : steps (B:=D) dbg y ls y' → steps (B:=R) dbg y ls y'.
Proof. induction 1; [constructor|]. econstructor; [done|by apply release_step]. Qed.
Lemma debug_step dbg y lb r : cstep (B:=R) dbg y lb = Some r →
  cstep (B:=D) dbg y lb = Some r ∨ cstep (B:=D) dbg y lb = Some (Fail Panic) ∨ cstep (B:=D) dbg y lb = Some (Fail WeightOvf).
Proof.
  intros H. pose proof (kept_cstep dbg y lb) as Hk. rewrite H in Hk. destruct (cstep (B:=D) dbg y lb) as [r'|]; [|done].
  destruct Hk as [->|[->| ->]]; auto.
Qed.
End kept3.

(* ---- undefined behaviour ---- *)
Section safe3.
Context {P : Params} {B : Build}.
Notation shard := (shard P). Notation sys := (sys P). Notation pc := (pc P). Notation agent := (agent P).
Implicit Types (s : shard) (y : sys) (a b j i : nat) (x : pc) (ag : agent).

Definition resident_at s i : Prop := ∃ r, entry_at s i = Ok (Resident r).
Lemma entry_set s i i' r r' : entry_at s i = Ok (Resident r) →
  entry_at (set_entry s i (Resident r')) i' = if decide (i' = i) then Ok (Resident r') else entry_at s i'.
Proof.
  unfold entry_at, set_entry, slab_get, slab_set. simpl. destruct (ents (sh_ents s) !! i) as [w|] eqn:E; [|done].
  intros _. simpl. case_decide; subst.
  - by rewrite list_lookup_insert by (by eapply lookup_lt_Some).
  - by rewrite list_lookup_insert_ne by done.
Qed.
Lemma search_entry s h k i r : search_resident s h k = Ok (Some (i, r)) → entry_at s i = Ok (Resident r).
Proof.
  unfold search_resident. intros H. apply bind_ok in H as (o & _ & H). destruct o as [i'|]; [|done].
  apply bind_ok in H as (e & He & H). destruct e; [|done..]. by simplify_eq.
Qed.

(* what a step does to the program counters *)
Definition pcs y : list pc := a_pc <$> y_agents y.
Lemma pcs_at y a : pcs y !! a = a_pc <$> y_agents y !! a.
Proof. apply list_lookup_fmap. Qed.
Lemma pcs_goto y a x : pcs (goto y a x) = <[a := x]> (pcs y).
Proof.
  unfold pcs, goto, with_agent; simpl. apply list_eq. intros b. rewrite list_lookup_fmap. destruct (decide (b = a)) as [->|Hne].
  - rewrite list_lookup_alter. destruct (y_agents y !! a) as [ag|] eqn:E; simpl.
    + rewrite list_lookup_insert; [done|]. rewrite fmap_length. by eapply lookup_lt_Some.
    + symmetry. apply lookup_ge_None. rewrite insert_length, fmap_length. by apply lookup_ge_None.
  - rewrite list_lookup_alter_ne, list_lookup_insert_ne by done. by rewrite list_lookup_fmap.
Qed.
Lemma pcs_agent y a f : (∀ ag, a_pc (f ag) = a_pc ag) → pcs (with_agent y a f) = pcs y.
Proof.
  intros Hf. unfold pcs, with_agent; simpl. apply list_eq. intros b. rewrite !list_lookup_fmap. destruct (decide (b = a)) as [->|Hne].
  - rewrite list_lookup_alter. destruct (y_agents y !! a); [|done]. simpl. by rewrite Hf.
  - by rewrite list_lookup_alter_ne.
Qed.
Lemma pcs_logged y a e : pcs (logged y a e) = pcs y. Proof. done. Qed.
Lemma pcs_ph y l (x : pst P) : pcs (with_ph y l x) = pcs y. Proof. done. Qed.
Lemma pcs_cache y c : pcs (with_cache y c) = pcs y. Proof. done. Qed.
Lemma pcs_put y j s : pcs (put_shard y j s) = pcs y. Proof. done. Qed.
Lemma pcs_note_thread y a b : pcs (note_thread y a b) = pcs y.
Proof. unfold note_thread. rewrite pcs_logged. by apply pcs_agent. Qed.
Lemma pcs_note_task y a b : pcs (note_task y a b) = pcs y.
Proof. unfold note_task. rewrite pcs_logged. by apply pcs_agent. Qed.

(* what a step of agent a does: it moves a on, which gets no lock by it; a shard it does not hold
   for writing keeps its residents where they are *)
Definition keeps_at y y' j : Prop := ∀ s i, sc_shards (y_cache y) !! j = Some s → resident_at s i →
  ∃ s', sc_shards (y_cache y') !! j = Some s' ∧ resident_at s' i.
Record acts y a x y' x' : Prop := {
  at_pcs : pcs y' = <[a := x']> (pcs y);
  at_holds : ∀ h, h ∈ holds a x' → h ∈ holds a x;
  at_keeps : ∀ j, (LShard j, MW) ∈ holds a x ∨ keeps_at y y' j;
  at_bump : ∀ j i v c, x' = GBump j i v c → ∃ s, sc_shards (y_cache y') !! j = Some s ∧ resident_at s i;
}.
Lemma keeps_same y y' j : y_cache y' = y_cache y → keeps_at y y' j.
Proof. intros E s i Hs Hr. rewrite E. eauto. Qed.
Lemma keeps_put y y' j s s' j' : sc_shards (y_cache y) !! j = Some s → (∀ i, resident_at s i → resident_at s' i) →
  y_cache y' = with_shard (y_cache y) j s' → keeps_at y y' j'.
Proof.
  intros Hs Hk E s0 i Hs0 Hr. rewrite E. simpl. destruct (decide (j' = j)) as [->|Hne].
  - rewrite list_lookup_insert by (by eapply lookup_lt_Some). rewrite Hs in Hs0. injection Hs0 as <-. eauto.
  - rewrite list_lookup_insert_ne by done. eauto.
Qed.
Lemma reads_keep s m s' o i : reads m = true → exec s m = Ok (s', o) → resident_at s i → resident_at s' i.
Proof.
  destruct m; try done; intros _ H [r Hr]; simpl in H.
  - apply bind_ok in H as (z & _ & H). simplify_eq. by exists r.
  - apply bind_ok in H as ([s1 z] & Hg & H). simplify_eq. unfold u_get, sh_get in Hg. apply bind_ok in Hg as (q & Hq & Hg).
    destruct q as [[i' r']|]; simplify_eq; [|by exists r]. apply search_entry in Hq. unfold resident_at.
    change (∃ r0, entry_at (set_entry s i' (Resident (if (r_ref r' <? MAX_F)%N then set_key_ref r' (r_ref r' + 1) else r'))) i = Ok (Resident r0)).
    rewrite (entry_set _ _ _ _ _ Hq). case_decide; eauto.
  - apply bind_ok in H as (z & _ & H). simplify_eq. by exists r.
Qed.
Lemma section_keeps y a j z y' r : section y a j z = Ok (y', r) →
  pcs y' = pcs y ∧ (∀ j', j' ≠ j → keeps_at y y' j') ∧
  ((∃ m, z = XCmd m ∧ reads m = true) → keeps_at y y' j).
Proof.
  unfold section, on_shard. intros H. apply bind_ok in H as ([c q] & H & ?). simplify_eq. apply bind_ok in H as (s & Hs & H).
  apply bind_ok in H as ([s' q] & Hx & ?). simplify_eq. destruct (sc_shards (y_cache y) !! j) as [s0|] eqn:E; [|done]. injection Hs as ->.
  split_and!; [done|..].
  - intros j' Hne s1 i Hs1 Hr. simpl. rewrite list_lookup_insert_ne by done. eauto.
  - intros (m & -> & Hm). eapply keeps_put; [done| |done]. intros i. simpl in Hx. apply bind_ok in Hx as ([s1 o] & Hx & ?). simplify_eq. by eapply reads_keep.
Qed.
Local Ltac pcs := unfold finish; repeat first [rewrite pcs_goto | rewrite pcs_note_thread | rewrite pcs_note_task | rewrite pcs_logged | rewrite pcs_ph |
  rewrite pcs_cache | rewrite pcs_put | rewrite pcs_agent by done]; reflexivity.
Lemma acts_still y a x y' x' : pcs y' = <[a := x']> (pcs y) → y_cache y' = y_cache y → (∀ h, h ∈ holds a x' → h ∈ holds a x) →
  (∀ j i v c, x' ≠ GBump j i v c) → acts y a x y' x'.
Proof. intros Hp Hc Hh Hb. split; [done|done|intros j; right; by apply keeps_same|]. intros j i v c E. by destruct (Hb j i v c). Qed.
Lemma acts_start dbg y a x j p sm : (∀ h, h ∈ s_holds j sm → h ∈ holds a x) →
  ∃ x', acts y a x (start_loading dbg y a j p sm) x'.
Proof.
  intros Hh. unfold start_loading, start_done. destruct dbg; [|destruct sm]; eexists; (eapply acts_still; [pcs|done| |done]); try done.
  all: by intros h ?%elem_of_nil.
Qed.
Lemma acts_finish y y1 a x r : pcs y1 = pcs y → y_cache y1 = y_cache y → ∃ x', acts y a x (finish y1 a r) x'.
Proof. intros Hp Hc. exists (ADone r). eapply acts_still; [unfold finish; rewrite pcs_logged, pcs_goto; by rewrite Hp|done|by intros h ?%elem_of_nil|done]. Qed.
(* after a critical section under the lock of the shard *)
Lemma acts_section y a x y1 y' x' j z r : section y a j z = Ok (y1, r) →
  (LShard j, MW) ∈ holds a x ∨ (∃ m, z = XCmd m ∧ reads m = true) → acts y1 a x y' x' → y_cache y' = y_cache y1 → acts y a x y' x'.
Proof.
  intros Hs Hl [A H K Hb] Hc. destruct (section_keeps _ _ _ _ _ _ Hs) as (Hp & Hk & Hk').
  assert (∀ j', keeps_at y y1 j' → keeps_at y y' j') as Ht by (intros j' Hj s i; rewrite Hc; apply Hj).
  split; [by rewrite A, Hp|done| |done]. intros j'. destruct (decide (j' = j)) as [->|Hne]; [|right; by auto].
  destruct Hl as [Hl|Hl]; [by left|right; auto].
Qed.
Lemma acts_put y a x y' x' j s s' : sc_shards (y_cache y) !! j = Some s → (∀ i, resident_at s i → resident_at s' i) →
  y_cache y' = with_shard (y_cache y) j s' → pcs y' = <[a := x']> (pcs y) → (∀ h, h ∈ holds a x' → h ∈ holds a x) →
  (∀ j i v c, x' ≠ GBump j i v c) → acts y a x y' x'.
Proof. intros Hs Hk Hc Hp Hh Hb. split; [done|done|intros j'; right; by eapply keeps_put|]. intros j' i v c E. by destruct (Hb j' i v c). Qed.
Lemma leave_same y j p w y' : leave y j p w = Ok y' → pcs y' = pcs y ∧ y_cache y' = y_cache y.
Proof. unfold leave. intros H. apply bind_ok in H as ([i ?] & _ & H). by simplify_eq. Qed.
Local Ltac still := simplify_eq; eexists; eapply acts_still; [pcs|done|try done; by intros ? ?%elem_of_nil|done].
Lemma act_acts dbg y a ag y' : act dbg y a ag = Some (Ok y') → ∃ x', acts y a (a_pc ag) y' x'.
Proof.
  unfold act. destruct (a_pc ag) eqn:Hpc; try done; intros [= H].
  - apply bind_ok in H as ([y1 r] & Hs & H). destruct r; try done. injection H as <-.
    destruct (acts_finish y1 y1 a (PIn j m) (RetOut o) eq_refl eq_refl) as [x' Hx]. exists x'. eapply acts_section; [done| |done|done].
    simpl. destruct (reads m) eqn:E; [right; eauto|left; apply elem_of_list_here].
  - destruct js; [|done]. injection H as H. simplify_eq. by apply acts_finish.
  - apply bind_ok in H as ([y1 r] & Hs & H). simplify_eq. exists (PAll m js). eapply acts_section; [done|left; apply elem_of_list_here| |done].
    eapply acts_still; [pcs|done|by intros h ?%elem_of_nil|done].
  - (* GIn *) unfold get_found in H. apply bind_ok in H as (s & Hs & H). apply bind_ok in H as (o & Ho & H). destruct o as [[i r]|]; simplify_eq.
    + eexists. split; [pcs|by destruct (_ <? _)%N|intros j'; right; by apply keeps_same|].
      intros j' i' v' c' E. destruct (_ <? _)%N; [|done]. injection E as <- <- <- <-. exists s. simpl. unfold read_shard in Hs.
      destruct (sc_shards (y_cache y) !! j); [|done]. injection Hs as ->. split; [done|]. exists r. by eapply search_entry.
    + still.
  - (* GBump *) apply bind_ok in H as (s & Hs & H). apply bind_ok in H as (s' & Hf & H). simplify_eq. unfold read_shard in Hs.
    destruct (sc_shards (y_cache y) !! j) as [s0|] eqn:E; [|done]. injection Hs as ->. unfold fetch_add in Hf. apply bind_ok in Hf as (en & He & Hf).
    destruct en as [r| |]; [|done..]. injection Hf as <-. eexists. eapply acts_put; [done| |done|pcs|done|done].
    intros i' [r' Hr']. unfold resident_at. rewrite (entry_set _ _ _ _ _ He). case_decide; eauto.
  - (* GHit *) unfold get_hit in H. apply bind_ok in H as (s & Hs & H). simplify_eq. unfold read_shard in Hs.
    destruct (sc_shards (y_cache y) !! j) as [s0|] eqn:E; [|done]. injection Hs as ->. eexists. eapply acts_put; [done| |done|pcs|by intros ? ?%elem_of_nil|done].
    done.
  - (* GMiss *) unfold get_miss in H. apply bind_ok in H as (s & Hs & H). unfold read_shard in Hs.
    destruct (sc_shards (y_cache y) !! j) as [s0|] eqn:E; [|done]. injection Hs as ->. destruct c; simplify_eq.
    all: eexists; eapply acts_put; [done| |done|pcs|by intros ? ?%elem_of_nil|done]; done.
  - (* JIn *) apply bind_ok in H as ([y1 r] & Hs & H).
    assert (∃ x', acts y1 a (JIn j k md) y' x' ∧ y_cache y' = y_cache y1) as (x' & Hx & Hc).
    { destruct r; try done.
      - simplify_eq. destruct (acts_finish y1 y1 a (JIn j k md) (RetVal v None) eq_refl eq_refl). eauto.
      - simplify_eq. eexists. split; [eapply acts_still; [pcs|done|done|done]|done].
      - assert (y' = start_loading dbg y1 a j p SNewLoad) as -> by congruence.
        destruct (acts_start dbg y1 a (JIn j k md) j p SNewLoad) as [x' Hx]; [by intros h Hh|]. exists x'. split; [done|]. by destruct dbg. }
    exists x'. eapply acts_section; [done|left; apply elem_of_list_here|done|done].
  - (* SIn *) destruct (at_load y (pl j p)); simplify_eq. unfold start_done. destruct sm; still.
  - (* JPushIn *) unfold push_waiter in H. destruct (at_load y (pl j p)); simplify_eq; [|by apply acts_finish].
    destruct md as [[to|]|wk]; still.
  - still.
  - destruct (a_token ag); [|done]. injection H as H. simplify_eq. still.
  - destruct (a_flag ag); [still|]. destruct tm as [[[? ?] ?]|]; still.
  - destruct (_ <? _)%N; still.
  - (* JTimeIn *) destruct (a_flag ag); [simplify_eq; still|]. apply bind_ok in H as (y1 & Hl & H). simplify_eq. destruct (leave_same _ _ _ _ _ Hl). by apply acts_finish.
  - (* JReIn *) destruct (at_load y (pl j p)); [|simplify_eq; by apply acts_finish|done].
    assert (y' = start_loading dbg y a j p SRejoin) as -> by congruence. apply acts_start. intros h Hh. simpl in *. set_solver.
  - destruct (a_flag ag); still.
  - (* FDropIn *) destruct (a_flag ag).
    + destruct (at_load y (pl j p)); [|simplify_eq; by apply acts_finish..].
      assert (y' = start_loading dbg y a j p SDropFut) as -> by congruence. apply acts_start. by intros h ?%elem_of_nil.
    + apply bind_ok in H as (y1 & Hl & H). simplify_eq. destruct (leave_same _ _ _ _ _ Hl). by apply acts_finish.
  - (* IIn *) still.
  - (* NGo *) destruct ws as [|[b []] ws].
    + destruct nm; simplify_eq; still.
    + done.
    + simplify_eq. still.
  - still.
  - (* NTask *) simplify_eq. eexists. eapply acts_still; [pcs|done| |done]. intros h Hh. simpl. apply elem_of_app. by left.
  - (* FillIn *) apply bind_ok in H as ([y1 r] & Hs & H).
    assert (∃ x', acts y1 a (FillIn j p rs v wl referenced) y' x' ∧ y_cache y' = y_cache y1) as (x' & Hx & Hc).
    { destruct r; simplify_eq; edestruct (acts_finish y1 y1 a (FillIn j p rs v wl referenced)) as [x' Hx]; [done|done|exists x'; split; [exact Hx|done]|done|done|exists x'; split; [exact Hx|done]]. }
    exists x'. eapply acts_section; [done|left; apply elem_of_list_here|done|done].
  - (* DIn *) destruct (list.last _).
    + apply bind_ok in H as (? & _ & H). simplify_eq. eexists. eapply acts_still; [pcs|done|done|done].
    + apply bind_ok in H as ([y1 r] & Hs & H). simplify_eq. eexists (ADone _).
      pose proof (acts_section _ _ (DIn j p) _ (finish (logged y1 a (EvEnd (pl j p))) a RetDrop) (ADone RetDrop) _ _ _ Hs) as [A H K Hb];
        [left; apply elem_of_list_here|eapply acts_still; [pcs|done|by intros ? ?%elem_of_nil|done]|done|].
      split; [exact A|done|exact K|exact Hb].
Qed.

(* the locks exclude each other, and what a get found stays there until it is counted *)
Record LkInv y : Prop := {
  lk_excl : ∀ a b x x', a ≠ b → pcs y !! a = Some x → pcs y !! b = Some x' →
    ∀ h h', h ∈ holds a x → h' ∈ holds b x' → compat h h' = true;
  lk_bump : ∀ a j i v c, pcs y !! a = Some (GBump j i v c) → ∃ s, sc_shards (y_cache y) !! j = Some s ∧ resident_at s i;
}.
Lemma compat_sym h h' : compat h h' = compat h' h.
Proof. destruct h as [l m], h' as [l' m']. unfold compat. simpl. destruct (decide (l = l')), (decide (l' = l)); try congruence. by destruct m, m'. Qed.
Lemma lk_move y y' a x x' : LkInv y → pcs y !! a = Some x → pcs y' = <[a := x']> (pcs y) →
  (∀ h, h ∈ holds a x' → h ∈ holds a x ∨ ∀ b z h', b ≠ a → pcs y !! b = Some z → h' ∈ holds b z → compat h h' = true) →
  (∀ b j i v c, b ≠ a → pcs y !! b = Some (GBump j i v c) → keeps_at y y' j) →
  (∀ j i v c, x' = GBump j i v c → ∃ s, sc_shards (y_cache y') !! j = Some s ∧ resident_at s i) → LkInv y'.
Proof.
  intros [HE HB] Ha Hp Hh Hk Hb.
  assert (∀ b z, pcs y' !! b = Some z → (b = a ∧ z = x') ∨ (b ≠ a ∧ pcs y !! b = Some z)) as Hat.
  { intros b z. rewrite Hp. destruct (decide (b = a)) as [->|Hne].
    - rewrite list_lookup_insert by (by eapply lookup_lt_Some). intros [= <-]. by left.
    - rewrite list_lookup_insert_ne by done. by right. }
  assert (∀ b z h h', b ≠ a → pcs y !! b = Some z → h ∈ holds a x' → h' ∈ holds b z → compat h h' = true) as Hax.
  { intros b z h h' Hne Hz H1 H2. destruct (Hh h H1) as [H3|H3]; [by eapply (HE a b)|by eapply H3]. }
  split.
  - intros b c z z' Hne Hz Hz' h h' H1 H2. destruct (Hat _ _ Hz) as [[-> ->]|[Hb1 Hz1]], (Hat _ _ Hz') as [[-> ->]|[Hb2 Hz2]]; [done|..].
    + by eapply Hax.
    + rewrite compat_sym. by eapply Hax.
    + by eapply (HE b c).
  - intros b j i v c Hz. destruct (Hat _ _ Hz) as [[-> Hx]|[Hb1 Hz1]]; [by eapply Hb|].
    destruct (HB _ _ _ _ _ Hz1) as (s & Hs & Hr). by eapply Hk.
Qed.
Lemma lk_acts y y' a x x' : LkInv y → pcs y !! a = Some x → acts y a x y' x' → LkInv y'.
Proof.
  intros HL Ha [A H K Hb]. eapply lk_move; [done|done|done|by auto| |done].
  intros b j i v c Hne Hz. destruct (K j) as [Hw|]; [|done]. exfalso.
  pose proof (lk_excl _ HL a b _ _ ltac:(done) Ha Hz _ (LShard j, MR) Hw (elem_of_list_here _ _)) as Hc. unfold compat in Hc. simpl in Hc.
  by rewrite decide_True in Hc.
Qed.
Lemma free_pcs y h b z h' : free y h = true → pcs y !! b = Some z → h' ∈ holds b z → compat h h' = true.
Proof.
  unfold free. rewrite forallb_forall, pcs_at. intros H Hz Hh'. destruct (y_agents y !! b) as [bg|] eqn:E; [|done]. injection Hz as <-.
  specialize (H (b, bg)). rewrite <-elem_of_list_In in H. specialize (H ltac:(apply elem_of_lookup_imap; eauto)).
  simpl in H. rewrite forallb_forall in H. apply H. by apply elem_of_list_In.
Qed.
Lemma enter_holds a x h h' : wants a x = Some h → h' ∈ holds a (entered x) → h' ∈ holds a x ∨ h' = h.
Proof.
  destruct x; simpl; try done;
  try match goal with js : list nat |- _ => destruct js; simpl; try done end;
  try match goal with ws : list waiter |- _ => destruct ws as [|[? [|]] ?]; simpl; try done end;
  intros [= <-]; rewrite ?elem_of_app, ?elem_of_cons, ?elem_of_nil; tauto.
Qed.
Lemma enter_bump a x h j i v c : wants a x = Some h → entered x ≠ GBump j i v c.
Proof.
  destruct x; simpl; try done;
  try match goal with js : list nat |- _ => destruct js; simpl; try done end;
  try match goal with ws : list waiter |- _ => destruct ws as [|[? [|]] ?]; simpl; try done end.
Qed.
Lemma lk_goto y a ag x' : LkInv y → y_agents y !! a = Some ag → (∀ h, h ∈ holds a x' → h ∈ holds a (a_pc ag)) →
  (∀ j i v c, x' ≠ GBump j i v c) → LkInv (goto y a x').
Proof.
  intros HL Ha Hh Hb. eapply lk_acts; [done|by rewrite pcs_at, Ha|]. eapply acts_still; [by rewrite pcs_goto|done|done|done].
Qed.
Lemma lk_same y y' : LkInv y → pcs y' = pcs y → y_cache y' = y_cache y → LkInv y'.
Proof. intros [A H] E E'. split; rewrite E; [done|]. rewrite E'. done. Qed.
Lemma lk_step dbg y lb y' : LkInv y → cstep dbg y lb = Some (Ok y') → LkInv y'.
Proof.
  intros HL. destruct lb as [c|a|a|d|a wk|a|a rs v wl|a]; cbn [cstep].
  - destruct (first_pc y c) as [r|] eqn:Hf; [|done]. intros [= H]. apply bind_ok in H as (x & Hx & H). simplify_eq.
    assert (∀ a, holds a x = [] ∧ ∀ j i v c, x ≠ GBump j i v c) as Hh.
    { intros a. destruct c as [m|k to|k]; simpl in Hf.
      - destruct (sync_cmd m); [|done]. injection Hf as Hf. destruct (key_of m).
        + apply bind_ok in Hf as (j & _ & Hf). simplify_eq. destruct m; done.
        + by simplify_eq.
      - injection Hf as Hf. apply bind_ok in Hf as (j & _ & Hf). by simplify_eq.
      - injection Hf as Hf. apply bind_ok in Hf as (j & _ & Hf). by simplify_eq. }
    set (y' := logged _ _ _). assert (∀ b z, pcs y' !! b = Some z → pcs y !! b = Some z ∨ z = x) as Hat.
    { intros b z. rewrite pcs_at. simpl. intros Hb. destruct (y_agents y !! b) as [bg|] eqn:E.
      - rewrite (lookup_app_l_Some _ _ _ _ E) in Hb. left. by rewrite pcs_at, E.
      - right. destruct ((y_agents y ++ _) !! b) eqn:E'; [|done]. simpl in Hb. apply lookup_app_Some in E' as [E'|[_ E']]; [congruence|].
        apply list_lookup_singleton_Some in E' as [_ <-]. by injection Hb as <-. }
    destruct HL as [HE HB]. split.
    + intros a b z z' Hne Hz Hz' h h' H1 H2. destruct (Hat _ _ Hz) as [Hz1| ->]; [|rewrite (proj1 (Hh a)) in H1; by apply elem_of_nil in H1].
      destruct (Hat _ _ Hz') as [Hz2| ->]; [|rewrite (proj1 (Hh b)) in H2; by apply elem_of_nil in H2]. by eapply (HE a b).
    + intros a j i v c' Hz. destruct (Hat _ _ Hz) as [Hz1|Hz1]; [by eapply HB|]. by destruct (proj2 (Hh a) j i v c').
  - unfold go. destruct (y_agents y !! a) as [ag|] eqn:Ha; [|done]. destruct (wants a (a_pc ag)) as [h|] eqn:Hw.
    + destruct (free y h) eqn:Hf; [|done]. intros [= <-]. eapply lk_move; [done|by rewrite pcs_at, Ha|by rewrite pcs_goto|..].
      * intros h' Hh'. destruct (enter_holds _ _ _ _ Hw Hh') as [| ->]; [by left|]. right. intros b z h0 _. by apply free_pcs.
      * intros. by apply keeps_same.
      * intros j i v c E. by destruct (enter_bump _ _ _ j i v c Hw).
    + intros H. destruct (act_acts _ _ _ _ _ H) as [x' Hx]. eapply lk_acts; [done| |done]. by rewrite pcs_at, Ha.
  - destruct (y_agents y !! a) as [ag|] eqn:Ha; [|done]. simpl. destruct (a_pc ag) eqn:Hpc; try done. intros [= <-].
    eapply lk_goto; [done|done|rewrite Hpc; done|done].
  - intros [= <-]. by eapply lk_same.
  - destruct (y_agents y !! a) as [ag|] eqn:Ha; [|done]. simpl. destruct (a_pc ag) eqn:Hpc; try done; intros [= <-];
    eapply lk_goto; [done|done|rewrite Hpc; done|done|done|done|rewrite Hpc; done|done].
  - destruct (y_agents y !! a) as [ag|] eqn:Ha; [|done]. simpl. destruct (a_pc ag) eqn:Hpc; try done; intros [= <-].
    + eapply (lk_same (goto y a (ADone RetCancel))); [|done|done]. eapply lk_goto; [done|done|rewrite Hpc; done|done].
    + eapply lk_goto; [done|done|rewrite Hpc; done|done].
  - destruct (y_agents y !! a) as [ag|] eqn:Ha; [|done]. simpl. destruct (a_pc ag) eqn:Hpc; try done; intros [= <-].
    eapply lk_goto; [done|done|rewrite Hpc; done|done].
  - destruct (y_agents y !! a) as [ag|] eqn:Ha; [|done]. simpl. destruct (a_pc ag) eqn:Hpc; try done; intros [= <-].
    eapply lk_goto; [done|done|rewrite Hpc; done|done].
Qed.
Lemma lk_steps dbg y ls y' : LkInv y → steps dbg y ls y' → LkInv y'.
Proof. induction 2; [done|]. eapply lk_step; [|done]. auto. Qed.
Lemma lk_start y : y_agents y = [] → LkInv y.
Proof. intros E. split; unfold pcs; rewrite E; done. Qed.

Lemma safe_section y a j z : safe (section y a j z).
Proof. unfold section. apply safe_bind; [apply safe_on_shard|]. by intros [] _. Qed.
Lemma safe_leave y j p w : safe (leave y j p w).
Proof. unfold leave. apply safe_bind; [apply safe_unwrap|]. by intros [] _. Qed.
Lemma safe_act dbg y a ag r : LkInv y → y_agents y !! a = Some ag → act dbg y a ag = Some r → safe r.
Proof.
  intros HL Ha. unfold act. destruct (a_pc ag) eqn:Hpc; try done; intros E.
  all: try solve [injection E as <-; repeat first [done | apply safe_bind; [first [apply safe_section|apply safe_leave]|intros; simplify_eq] |
    match goal with |- safe (match ?z with _ => _ end) => destruct z end]].
  - destruct js; [|done]. by injection E as <-.
  - (* GIn *) injection E as <-. unfold get_found, read_shard. apply safe_bind; [apply safe_unwrap|intros s _]. apply safe_bind; [apply safe_search_resident|]. intros [[]|] _; done.
  - (* GBump *) injection E as <-. destruct (lk_bump _ HL a j i v c) as (s & Hs & r & Hr); [by rewrite pcs_at, Ha; simpl; rewrite Hpc|].
    unfold read_shard. rewrite Hs. simpl. unfold fetch_add. by rewrite Hr.
  - injection E as <-. unfold get_hit, read_shard. apply safe_bind; [apply safe_unwrap|done].
  - injection E as <-. unfold get_miss, read_shard. apply safe_bind; [apply safe_unwrap|done].
  - injection E as <-. unfold push_waiter. by destruct (at_load _ _).
  - destruct (a_token ag); [|done]. by injection E as <-.
  - destruct ws as [|[? []]]; [destruct nm| |]; try done; by injection E as <-.
  - injection E as <-. destruct (list.last _).
    + apply safe_bind; [|done]. destruct (at_load _ _), dbg; done.
    + apply safe_bind; [apply safe_section|]. by intros [] _.
Qed.
Lemma safe_cstep dbg y lb r : LkInv y → cstep dbg y lb = Some r → safe r.
Proof.
  intros HL. destruct lb as [c|a|a|d|a wk|a|a rs v wl|a]; cbn [cstep].
  - destruct (first_pc y c) as [x|] eqn:Hf; [|done]. intros [= <-]. apply safe_bind; [|done].
    destruct c as [m|k to|k]; simpl in Hf.
    + destruct (sync_cmd m); [|done]. injection Hf as <-. destruct (key_of m); [|done]. apply safe_bind; [apply safe_unwrap|done].
    + injection Hf as <-. apply safe_bind; [apply safe_unwrap|done].
    + injection Hf as <-. apply safe_bind; [apply safe_unwrap|done].
  - unfold go. destruct (y_agents y !! a) as [ag|] eqn:Ha; [|done]. destruct (wants a (a_pc ag)).
    + destruct (free _ _); [|done]. by intros [= <-].
    + by eapply safe_act.
  - destruct (a_pc <$> _) as [[]|]; try done; by intros [= <-].
  - by intros [= <-].
  - destruct (a_pc <$> _) as [[]|]; try done; by intros [= <-].
  - destruct (a_pc <$> _) as [[]|]; try done; by intros [= <-].
  - destruct (a_pc <$> _) as [[]|]; try done; by intros [= <-].
  - destruct (a_pc <$> _) as [[]|]; try done; by intros [= <-].
Qed.
End safe3.

(* an execution given by its labels *)
Fixpoint follow {P : Params} {B : Build} (dbg : bool) (y : sys P) (ls : list (label P)) : option (sys P) :=
  match ls with
  | [] => Some y
  | lb :: ls => match cstep dbg y lb with Some (Ok y) => follow dbg y ls | _ => None end
  end.
Lemma follow_steps {P : Params} {B : Build} dbg (y : sys P) ls y' : follow dbg y ls = Some y' → steps dbg y ls y'.
Proof.
  assert (∀ y0 ls0 y, steps dbg y0 ls0 y → follow dbg y ls = Some y' → steps dbg y0 (ls0 ++ ls) y') as H; [|apply (H y []); constructor].
  clear y. induction ls as [|lb ls IH]; intros y0 ls0 y H; simpl.
  - intros [= <-]. by rewrite app_nil_r.
  - destruct (cstep dbg y lb) as [[y1|]|] eqn:E; [|done..]. intros Hf. rewrite (cons_middle lb), app_assoc. eapply IH; [|done]. by eapply st_snoc.
Qed.
