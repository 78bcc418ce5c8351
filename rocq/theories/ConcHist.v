(* What a call did so far, at each of its program counters. *)
From stdpp Require Import prelude list functions.
From Verif Require Export ConcMove.

Section conchist.
Context {P : Params} (LW : Lawful P) (PI : ptr_ids P = true) {LG : Ledger P}.
Context {budget ghosts cap e : N}.
Notation K := (K P). Notation V := (V P). Notation RS := (RS P).
Notation shard := (shard P). Notation sys := (sys P). Notation pc := (pc P). Notation agent := (agent P).
Notation CInv := (CInv budget ghosts cap e).
Implicit Types (s : shard) (k : K) (v : V) (rs : RS) (p : plh) (a b : nat) (l : loc) (j : nat) (y : sys) (x : pc) (ag : agent).
Implicit Types (c : call P) (h es : list (cevent P)) (g : list (nat * cevent P)).

Definition get_call c k (gc : gcont) : Prop :=
  match gc with CRet => c = KCmd (CGet k) | CJoin to => c = KLoad k to | CFut _ => c = KFut k end.
Definition join_call c k (md : jmode) : Prop :=
  match md with JThread to => c = KLoad k to | JTask _ => c = KFut k end.
Definition all_ev (m : cmd P) j : cevent P := EvSec j (OCmd m) (SO (plain RUnit)).
(* it is, or was, a guard: returned by the call, or given to a future that is being dropped *)
Definition guardian j c k (id : N) h : Prop := guarded j c k id h ∨ (c = KFut k ∧ h = queued j c k id).

Definition hpc (mask : N) (n : nat) c x h : Prop :=
  let at_ j k := j = shard_idx mask k in
  let q j k p := at_ j k ∧ h = queued j c k (ph_id p) in
  match x with
  | PWant j m | PIn j m => ∃ k, c = KCmd m ∧ key_of m = Some k ∧ at_ j k ∧ h = [EvCall c]
  | PAll m js => c = KCmd m ∧ key_of m = None ∧ ∃ i, i ≤ n ∧ js = seq i (n - i) ∧ h = EvCall c :: map (all_ev m) (seq 0 i)
  | PAllIn m j js => c = KCmd m ∧ key_of m = None ∧ j < n ∧ js = seq (S j) (n - S j) ∧ h = EvCall c :: map (all_ev m) (seq 0 j)
  | GWant j k gc | GIn j k gc => get_call c k gc ∧ at_ j k ∧ h = [EvCall c]
  | GBump j _ v gc | GHit j v gc =>
      ∃ k, get_call c k gc ∧ at_ j k ∧ h = [EvCall c; EvSec j (OCmd (CGet k)) (SO (plain (RVal (Some v))))]
  | GMiss j k gc => get_call c k gc ∧ at_ j k ∧ h = asked j c k
  | JWant j k md | JIn j k md => join_call c k md ∧ at_ j k ∧ h = asked j c k
  | JPush j p md | JPushIn j p md => ∃ k, join_call c k md ∧ at_ j k ∧ h = asked j c k ++ [EvSec j (OJoin k) (SWait (ph_id p))]
  | JStart j p to => ∃ k, c = KLoad k (Some to) ∧ q j k p
  | JPark j p tm | JChk j p tm => ∃ k, c = KLoad k (match tm with None => None | Some (_, to, _) => Some to end) ∧ q j k p
  | JElapsed j p _ to => ∃ k, c = KLoad k (Some to) ∧ q j k p
  | JTime j p | JTimeIn j p => ∃ k to, c = KLoad k (Some to) ∧ q j k p
  | JRe j p | JReS j p | JReIn j p => ∃ k, loads_key c = Some k ∧ q j k p
  | FNew j k => c = KFut k ∧ at_ j k ∧ h = [EvCall c]
  | FIdle j p _ | FPoll j p _ | FPollIn j p _ | FDrop j p | FDropS j p | FDropIn j p => ∃ k, c = KFut k ∧ q j k p
  | SWant j p sm | SIn j p sm =>
      match sm with
      | SNewLoad => ∃ k, loads_key c = Some k ∧ at_ j k ∧ h = began j c k (ph_id p)
      | SRejoin => ∃ k, loads_key c = Some k ∧ q j k p
      | SDropFut => ∃ k, c = KFut k ∧ q j k p
      end
  | AGuard j p | IWant j p _ _ _ | IIn j p _ _ _ => ∃ k, loads_key c = Some k ∧ at_ j k ∧ guarded j c k (ph_id p) h
  | DWant j p | DS j p | DIn j p => ∃ k, loads_key c = Some k ∧ at_ j k ∧ guardian j c k (ph_id p) h
  | NGo j p _ (NIns rs v wl _) | NUnpark j p _ _ (NIns rs v wl _) | NTask j p _ _ (NIns rs v wl _)
  | FillWant j p rs v wl _ | FillIn j p rs v wl _ =>
      ∃ k h0, loads_key c = Some k ∧ at_ j k ∧ guarded j c k (ph_id p) h0 ∧ h = h0 ++ [EvPut (pl j p) v]
  | NGo j p ws NDrop =>
      ∃ k h0 b, loads_key c = Some k ∧ at_ j k ∧ guardian j c k (ph_id p) h0 ∧ h = h0 ++ [EvGive (pl j p) b] ∧ Forall (λ w, w.1 = b) ws
  | NUnpark j p b ws NDrop | NTask j p b ws NDrop =>
      ∃ k h0, loads_key c = Some k ∧ at_ j k ∧ guardian j c k (ph_id p) h0 ∧ h = h0 ++ [EvGive (pl j p) b] ∧ Forall (λ w, w.1 = b) ws
  | ADone r => ∃ h0, life mask n c h0 r ∧ h = h0 ++ [EvRet r]
  end.

Record HInv y : Prop := {
  hi_alive : ∀ a ag, y_agents y !! a = Some ag → ¬ lg_dead a →
    hpc (sc_mask (y_cache y)) (length (sc_shards (y_cache y))) (a_call ag) (a_pc ag) (hist (y_log y) a);
  hi_dead : ∀ a, lg_dead a → ∃ ag, y_agents y !! a = Some ag ∧ a_pc ag = ADone RetCancel;
  hi_log : ∀ a ev, (a, ev) ∈ y_log y → a < length (y_agents y);
}.
Lemma hi_active y a ag : HInv y → y_agents y !! a = Some ag → (∀ r, a_pc ag ≠ ADone r) →
  hpc (sc_mask (y_cache y)) (length (sc_shards (y_cache y))) (a_call ag) (a_pc ag) (hist (y_log y) a).
Proof.
  intros HI Ha Hn. apply (hi_alive _ HI); [done|]. intros Hd. destruct (hi_dead _ HI _ Hd) as (ag' & Ha' & Hp).
  rewrite Ha in Ha'. injection Ha' as <-. by destruct (Hn RetCancel).
Qed.

(* ---- histories ---- *)
Lemma hist_app g g' a : hist (g ++ g') a = hist g a ++ hist g' a.
Proof. unfold hist. by rewrite map_app, concat_app. Qed.
Definition not_note (ev : cevent P) : bool := match ev with EvNote _ => false | _ => true end.
Lemma hist_own a es : hist (map (pair a) es) a = List.filter not_note es.
Proof.
  induction es as [|ev es IH]; [done|]. unfold hist in *. simpl. rewrite IH. unfold mine. rewrite decide_True by done. by destruct ev.
Qed.
Lemma hist_other a b es : a ≠ b → hist (map (pair a) es) b = [].
Proof. intros H. induction es as [|ev es IH]; [done|]. unfold hist in *. simpl. rewrite IH. unfold mine. by rewrite decide_False. Qed.
Lemma hist_none g a : (∀ ev, (a, ev) ∉ g) → hist g a = [].
Proof.
  induction g as [|[b ev] g IH]; [done|]. intros H. unfold hist in *. simpl. unfold mine at 1. simpl. case_decide.
  - subst. destruct (H ev). left.
  - simpl. apply IH. intros ev' H'. apply (H ev'). by right.
Qed.
Lemma hist_in g a ev : not_note ev = true → (a, ev) ∈ g ↔ ev ∈ hist g a.
Proof.
  intros Hn. induction g as [|[b z] g IH]; [split; by intros ?%elem_of_nil|]. unfold hist in *. simpl.
  rewrite elem_of_cons, elem_of_app, IH. unfold mine. simpl. case_decide.
  - subst b. split.
    + intros [[= ->]|]; [left|by right]. destruct z; try done; by apply elem_of_list_singleton.
    + intros [H|]; [left|by right]. f_equal. destruct z; first [by apply elem_of_list_singleton in H|by apply elem_of_nil in H].
  - split; [intros [[= <- <-]|]; [done|by right]|intros [Hz|]; [by apply elem_of_nil in Hz|by right]].
Qed.

Lemma hpc_enter mask n a c x w h : wants a x = Some w → hpc mask n c x h → hpc mask n c (entered x) h.
Proof.
  destruct x; try done; simpl; intros Hw H; try exact H.
  - (* PAll *) destruct js as [|j js]; [done|]. destruct H as (H1 & H2 & i & H3 & H4 & H5). simpl.
    assert (i < n) as Hi. { destruct (decide (i = n)) as [->|]; [|lia]. by rewrite Nat.sub_diag in H4. }
    replace (n - i) with (S (n - S i)) in H4 by lia. simpl in H4. injection H4 as -> ->. done.
  - (* NGo *) destruct ws as [|[b [|]] ws]; [done| |done]. simpl. destruct nm; [exact H|]. destruct H as (k & h0 & b0 & H1 & H2 & H3 & H4 & H5).
    apply Forall_cons in H5 as [<- H5]. by exists k, h0.
Qed.

Lemma guarded_of j c k p (sm : smode) : loads_key c = Some k → 
  guarded j c k (ph_id p) (match sm with SNewLoad => began j c k (ph_id p) | _ => queued j c k (ph_id p) end ++ [EvGuard (pl j p)]).
Proof. intros H. destruct sm; constructor. Qed.
Lemma starts_hpc mask n dbg sm j p x' es c k h : starts dbg sm j p x' es → loads_key c = Some k → j = shard_idx mask k →
  match sm with SNewLoad => h = began j c k (ph_id p) | SRejoin => h = queued j c k (ph_id p) | SDropFut => c = KFut k ∧ h = queued j c k (ph_id p) end →
  hpc mask n c x' (h ++ List.filter not_note es).
Proof.
  intros Hs Hk Hj Hh. destruct Hs as [Hd|Hd].
  - rewrite app_nil_r. destruct sm; simpl; exists k; naive_solver.
  - destruct sm; simpl.
    + subst h. exists k. split_and!; [done|done|]. constructor.
    + subst h. exists k. split_and!; [done|done|]. constructor.
    + destruct Hh as [-> ->]. exists k. rewrite app_nil_r. split_and!; [done|done|]. by right.
Qed.
Lemma loads_join c k md : join_call c k md → loads_key c = Some k.
Proof. by destruct md; simpl; intros ->. Qed.

Lemma hpc_mv dbg y a ag c x x' es us : mv dbg y a ag x x' es us → 
  let mask := sc_mask (y_cache y) in let n := length (sc_shards (y_cache y)) in
  ∀ h, hpc mask n c x h → hpc mask n c x' (h ++ List.filter not_note es).
Proof.
  intros M mask n h. destruct M as
    [x w Hw Hf|j m o|m|m j js|j k gc i v x0 Hx0|j k gc|j i v gc|j v gc r Hr|j k|j k to|j k wk
    |j k md v|j k md p x0 es0 Hs|j k md p|j p sm|j p md Hl|j p md v Hl|j p to|j p tm Ht|j p tm Hfl|j p Hfl
    |j p st to d Hfl|j p st to Hlt|j p st to Hle|j p Hfl|j p Hfl Hin|j p x0 es0 Hl Hs|j p v Hl|j p wk Hfl|j p wk Hfl
    |j p x0 es0 Hfl Hl Hs|j p Hfl Hl|j p Hfl Hin|j p rs v wl ws ref Hws|j p rs v wl ref|j p|j p b ws nm|j p b ws nm|j p b ws nm
    |j p rs v wl ref o|j p rs v wl ref|j p w Hl Hld|j p Hl]; simpl; intros H; rewrite ?app_nil_r.
  - by eapply hpc_enter.
  - destruct H as (k & -> & Hk & -> & ->). exists [EvCall (KCmd m); EvSec (shard_idx mask k) (OCmd m) (SO o)]. split; [by constructor|done].
  - destruct H as (-> & Hk & i & Hi & Hs & ->). eexists. split; [by apply lf_all|]. assert (i = n) as ->.
    { destruct (decide (i = n)); [done|]. replace (n - i) with (S (n - S i)) in Hs by lia. done. } done.
  - destruct H as (-> & Hk & Hj & -> & ->). split_and!; try done. exists (S j). split_and!; [lia|done|].
    rewrite seq_S, map_app. done.
  - destruct H as (H1 & H2 & ->). destruct Hx0 as [-> | ->]; exists k; by split_and!.
  - destruct H as (H1 & H2 & ->). by split_and!.
  - done.
  - destruct H as (k & H1 & -> & ->). eexists. split; [|done]. subst r. destruct gc; simpl in H1; subst c; by constructor.
  - destruct H as (-> & -> & ->). eexists. split; [|done]. unfold asked. by constructor.
  - done.
  - done.
  - destruct H as (H1 & -> & ->). exists (asked (shard_idx mask k) c k ++ [EvSec (shard_idx mask k) (OJoin k) (SHit v)]).
    split; [|done]. constructor. by eapply loads_join.
  - destruct H as (H1 & H2 & ->). rewrite cons_middle, app_assoc. eapply starts_hpc; [exact Hs|by eapply loads_join|done|done].
  - destruct H as (H1 & H2 & ->). by exists k.
  - destruct sm; simpl in *.
    + destruct H as (k & H1 & H2 & ->). exists k. split_and!; [done|done|constructor].
    + destruct H as (k & H1 & H2 & ->). exists k. split_and!; [done|done|constructor].
    + destruct H as (k & -> & H2 & ->). rewrite app_nil_r. exists k. split_and!; [done|done|by right].
  - destruct H as (k & H1 & H2 & ->). destruct md as [[to|]|wk]; simpl in *; exists k; split_and!; try done.
    all: unfold queued; by rewrite <-app_assoc.
  - destruct H as (k & H1 & -> & ->). eexists. split; [|done]. constructor. by eapply loads_join.
  - done.
  - done.
  - destruct H as (k & -> & H). exists k. done.
  - done.
  - done.
  - done.
  - destruct H as (k & H). eauto.
  - destruct H as (k & to & -> & H). by exists k.
  - destruct H as (k & to & -> & -> & ->). eexists. split; [|done]. constructor.
  - destruct H as (k & H1 & H2 & ->). by eapply starts_hpc.
  - destruct H as (k & H1 & -> & ->). eexists. split; [|done]. by constructor.
  - destruct H as (k & -> & H). by exists k.
  - done.
  - destruct H as (k & -> & H2 & ->). eapply starts_hpc; by try done.
  - destruct H as (k & -> & -> & ->). eexists. split; [|done]. constructor.
  - destruct H as (k & -> & -> & ->). eexists. split; [|done]. constructor.
  - destruct H as (k & H1 & H2 & H3). eauto 10.
  - done.
  - destruct H as (k & h0 & b & H1 & -> & [H|[-> ->]] & -> & _).
    + eexists. split; [|done]. eapply lf_drop; [done|done|constructor].
    + eexists. split; [|done]. eapply lf_cancel_drop. constructor.
  - destruct nm; [done|]. destruct H as (k & h0 & b0 & H1 & H2 & H3 & H4 & H5). apply Forall_cons in H5 as [<- H5]. by exists k, h0.
  - destruct nm; [done|]. destruct H as (k & h0 & H1 & H2 & H3 & H4 & H5). by exists k, h0, b.
  - destruct nm; [done|]. destruct H as (k & h0 & H1 & H2 & H3 & H4 & H5). by exists k, h0, b.
  - destruct H as (k & h0 & H1 & -> & H3 & ->). eexists. split; [by eapply (lf_insert _ _ c k (ph_id p) h0 rs v wl o)|]. by rewrite <-!app_assoc.
  - destruct H as (k & h0 & H1 & -> & H3 & ->). eexists. split; [by eapply (lf_stale _ _ c k (ph_id p) h0 rs v wl)|]. by rewrite <-!app_assoc.
  - destruct H as (k & H1 & H2 & H3). exists k, h, w.1. split_and!; try done. by apply Forall_singleton.
  - destruct H as (k & H1 & -> & [H|[-> ->]]).
    + eexists. split; [eapply lf_drop; [done|done|apply dr_end]|]. by rewrite <-app_assoc.
    + eexists. split; [eapply lf_cancel_drop, dr_end|]. by rewrite <-app_assoc.
Qed.
Lemma mv_not_done dbg y a ag r x' es us : ¬ mv dbg y a ag (ADone r) x' es us.
Proof. intros M. inversion M; subst; done. Qed.
Lemma hpc_ext mask n lb a ag x' es h : ext lb a ag (a_pc ag) x' es → hpc mask n (a_call ag) (a_pc ag) h →
  hpc mask n (a_call ag) x' (h ++ List.filter not_note es).
Proof.
  generalize (a_call ag) as c. intros c M. destruct M; simpl; rewrite ?app_nil_r; try done.
  - intros (-> & H1 & ->). eexists. split; [|done]. constructor.
  - intros (k & H1 & H2 & H3). exists k. split_and!; [done|done|by left].
Qed.

Lemma hinv_moved y y' a ag x' es us : HInv y → y_agents y !! a = Some ag → (∀ r, a_pc ag ≠ ADone r) → moved y y' a x' es us →
  hpc (sc_mask (y_cache y)) (length (sc_shards (y_cache y))) (a_call ag) x' (hist (y_log y) a ++ List.filter not_note es) → HInv y'.
Proof.
  intros HI Ha Hnd M Hx. destruct HI as [H1 H3 H2]. split.
  - intros b bg Hb Hd. destruct (md_case _ _ _ _ _ _ _ _ _ M Ha Hb) as (bg0 & Hb0 & Hcall & _ & _ & _ & _ & _ & Hc).
    rewrite (md_log _ _ _ _ _ _ M), (md_mask _ _ _ _ _ _ M), (md_len _ _ _ _ _ _ M), hist_app, Hcall.
    destruct Hc as [(-> & -> & ->)|[Hne ->]].
    + by rewrite hist_own.
    + rewrite hist_other, app_nil_r by done. by apply H1.
  - intros b Hd. destruct (H3 b Hd) as (bg & Hb & Hp). assert (b ≠ a) as Hne by (intros ->; rewrite Ha in Hb; injection Hb as <-; by destruct (Hnd RetCancel)).
    assert (b < length (y_agents y')) as Hlt by (rewrite (md_length _ _ _ _ _ _ M); by eapply lookup_lt_Some).
    apply lookup_lt_is_Some in Hlt as [bg' Hb']. exists bg'. split; [done|].
    destruct (md_case _ _ _ _ _ _ _ _ _ M Ha Hb') as (bg0 & Hb0 & _ & _ & _ & _ & _ & _ & Hc).
    rewrite Hb in Hb0. injection Hb0 as <-. destruct Hc as [(-> & _)|[_ ->]]; done.
  - intros b ev. rewrite (md_log _ _ _ _ _ _ M), (md_length _ _ _ _ _ _ M). rewrite elem_of_app. intros [H|H]; [by eapply H2|].
    apply elem_of_list_fmap in H as (ev' & [= -> ->] & _). by eapply lookup_lt_Some.
Qed.
Lemma hinv_step dbg y lb y' : CInv y → HInv y → stepped dbg y y' lb → HInv y'.
Proof.
  intros HC HI. destruct 1 as [a ag x' es us Ha M Hm|lb a ag x' es Ha M Hm|c x Hf ->|d ->].
  - assert (∀ r, a_pc ag ≠ ADone r) as Hn by (intros r E; rewrite E in M; by eapply mv_not_done).
    eapply hinv_moved; [done|done|done|done|]. eapply hpc_mv; [done|by apply hi_active].
  - assert (∀ r, a_pc ag ≠ ADone r) as Hn by (intros r E; rewrite E in M; inversion M).
    eapply hinv_moved; [done|done|done|done|]. eapply hpc_ext; [done|by apply hi_active].
  - destruct HI as [H1 H3 H2]. split; simpl.
    + intros b bg. rewrite hist_app. change [(length (y_agents y), EvCall c)] with (map (pair (length (y_agents y))) [EvCall c]). intros Hb Hd. apply lookup_app_Some in Hb as [Hb|[Hle Hb]].
      * rewrite (hist_other _ b [EvCall c]), app_nil_r; [by apply H1|]. apply lookup_lt_Some in Hb. lia.
      * apply list_lookup_singleton_Some in Hb as [Hz <-]. assert (b = length (y_agents y)) as -> by lia.
        rewrite (hist_none (y_log y)); [|intros ev Hev; apply H2 in Hev; lia]. rewrite (hist_own _ [EvCall c]). simpl.
        pose proof (λ k, proj1 (key_shard y k HC)) as Hks. unfold first_pc in Hf. destruct c as [m|k to|k].
        -- destruct (sync_cmd m) eqn:Hsm; [|done]. destruct (key_of m) as [k|] eqn:Hk.
           ++ rewrite Hks in Hf. cbn in Hf. injection Hf as <-. destruct m; try done; simpl in *; simplify_eq; eauto 10.
           ++ injection Hf as <-. simpl. split_and!; try done. exists 0. rewrite Nat.sub_0_r. split_and!; [lia|done|done].
        -- rewrite Hks in Hf. cbn in Hf. by injection Hf as <-.
        -- rewrite Hks in Hf. cbn in Hf. by injection Hf as <-.
    + intros b Hd. destruct (H3 b Hd) as (bg & Hb & Hp). exists bg. split; [by apply lookup_app_l_Some|done].
    + intros b ev. rewrite app_length, elem_of_app. simpl. intros [H|H]; [apply H2 in H; lia|].
      apply elem_of_list_singleton in H as [= -> ->]. lia.
  - destruct HI as [H1 H3 H2]. split; [apply H1|apply H3|apply H2].
Qed.
End conchist.

Section conchists.
Context {P : Params} (LW : Lawful P) (PI : ptr_ids P = true).
Context {budget ghosts cap e : N}.
Notation CInv := (CInv budget ghosts cap e).
Implicit Types (y : sys P) (a : nat) (ag : agent P).
Lemma hi_agent y (HI : HInv y) a ag : y_agents y !! a = Some ag →
  hpc (sc_mask (y_cache y)) (length (sc_shards (y_cache y))) (a_call ag) (a_pc ag) (hist (y_log y) a).
Proof. intros Ha. apply (hi_alive _ HI); [done|]. intros H. exact H. Qed.
Lemma hinv_new : HInv (P:=P) (sys_new budget ghosts cap e).
Proof. split; [done| |]; [by intros a H; destruct H|]. intros a ev H. by apply elem_of_nil in H. Qed.
Lemma steps_hinv dbg ls y : steps dbg (sys_new budget ghosts cap e) ls y → CInv y ∧ HInv y.
Proof.
  intros H. split; [by eapply steps_inv|]. remember (sys_new budget ghosts cap e) as y0. induction H as [|y0 ls y1 lb y2 H IH Hs].
  - subst. apply hinv_new.
  - subst y0. pose proof (steps_inv LW PI _ _ _ H) as HC. eapply hinv_step; [exact HC|by apply IH|]. by eapply cstep_stepped.
Qed.
End conchists.
