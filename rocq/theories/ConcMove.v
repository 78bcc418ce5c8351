(* The steps of an agent, seen as moves of its program counter. *)
From stdpp Require Import prelude list functions.
From Verif Require Export ConcStep4 ConcSpec.

(* what a step does to the other fields of an agent *)
Inductive eff := UFlag (f : bool) | UToken (f : bool) | UWaker (wk : N) | UWoke.

Section concmove.
Context {P : Params} (LW : Lawful P) (PI : ptr_ids P = true) {LG : Ledger P}.
Context {budget ghosts cap e : N}.
Notation K := (K P). Notation V := (V P). Notation RS := (RS P).
Notation shard := (shard P). Notation sys := (sys P). Notation pc := (pc P). Notation agent := (agent P).
Notation CInv := (CInv budget ghosts cap e).
Implicit Types (s : shard) (k : K) (v : V) (rs : RS) (p : plh) (a b : nat) (l : loc) (j : nat) (y : sys) (x : pc) (ag : agent).

Definition apply_eff (u : eff) : agent → agent :=
  match u with
  | UFlag f => set_flag f
  | UToken f => set_token f
  | UWaker wk => set_waker wk
  | UWoke => λ ag, set_woken (Some (a_waker ag)) (set_flag true ag)
  end.
Definition effs (us : list (nat * eff)) (l : list agent) : list agent :=
  foldl (λ (l : list agent) u, alter (apply_eff u.2) u.1 l) l us.

Definition guarded_pc (sm : smode) j p : pc := match sm with SDropFut => DWant j p | _ => AGuard j p end.
Definition guarded_ev (sm : smode) j p : list (cevent P) := match sm with SDropFut => [] | _ => [EvGuard (pl j p)] end.
Inductive starts (dbg : bool) (sm : smode) j p : pc → list (cevent P) → Prop :=
  | ss_dbg : dbg = true → starts dbg sm j p (SWant j p sm) []
  | ss_now : dbg = false → starts dbg sm j p (guarded_pc sm j p) (guarded_ev sm j p).
Definition waiting_pc j p (md : jmode) : pc :=
  match md with JThread None => JPark j p None | JThread (Some to) => JStart j p to | JTask wk => FIdle j p wk end.
Definition waiting_us a (md : jmode) : list (nat * eff) :=
  (a, UFlag false) :: match md with JTask wk => [(a, UWaker wk)] | _ => [] end.
Definition got {A} (c : gcont) (f : ret P) (g : A) : ret P * A := (f, g).

Inductive mv (dbg : bool) y a ag : pc → pc → list (cevent P) → list (nat * eff) → Prop :=
  | mv_enter x h : wants a x = Some h → free y h = true → mv dbg y a ag x (entered x) [] []
  | mv_cmd j m o : mv dbg y a ag (PIn j m) (ADone (RetOut o)) [EvSec j (OCmd m) (SO o); EvRet (RetOut o)] []
  | mv_alld m : mv dbg y a ag (PAll m []) (ADone (RetOut (plain RUnit))) [EvRet (RetOut (plain RUnit))] []
  | mv_all m j js : mv dbg y a ag (PAllIn m j js) (PAll m js) [EvSec j (OCmd m) (SO (plain RUnit))] []
  | mv_some j k c i v x' : x' = GBump j i v c ∨ x' = GHit j v c →
      mv dbg y a ag (GIn j k c) x' [EvSec j (OCmd (CGet k)) (SO (plain (RVal (Some v))))] []
  | mv_none j k c : mv dbg y a ag (GIn j k c) (GMiss j k c) [EvSec j (OCmd (CGet k)) (SO (plain (RVal None)))] []
  | mv_bump j i v c : mv dbg y a ag (GBump j i v c) (GHit j v c) [] []
  | mv_hit j v c r : r = match c with CRet => RetOut (plain (RVal (Some v))) | _ => RetVal v None end →
      mv dbg y a ag (GHit j v c) (ADone r) [EvRet r] []
  | mv_miss j k : mv dbg y a ag (GMiss j k CRet) (ADone (RetOut (plain (RVal None)))) [EvRet (RetOut (plain (RVal None)))] []
  | mv_missj j k to : mv dbg y a ag (GMiss j k (CJoin to)) (JWant j k (JThread to)) [] []
  | mv_missf j k wk : mv dbg y a ag (GMiss j k (CFut wk)) (JWant j k (JTask wk)) [] []
  | mv_jhit j k md v : mv dbg y a ag (JIn j k md) (ADone (RetVal v None)) [EvSec j (OJoin k) (SHit v); EvRet (RetVal v None)] []
  | mv_jnew j k md p x' es : starts dbg SNewLoad j p x' es →
      mv dbg y a ag (JIn j k md) x' (EvSec j (OJoin k) (SNew (ph_id p)) :: es) []
  | mv_jwait j k md p : mv dbg y a ag (JIn j k md) (JPush j p md) [EvSec j (OJoin k) (SWait (ph_id p))] []
  | mv_assert j p sm : mv dbg y a ag (SIn j p sm) (guarded_pc sm j p) (guarded_ev sm j p) []
  | mv_push j p md : at_load y (pl j p) = Loading →
      mv dbg y a ag (JPushIn j p md) (waiting_pc j p md) [EvWait (pl j p)] (waiting_us a md)
  | mv_pushv j p md v : at_load y (pl j p) = Inserted v →
      mv dbg y a ag (JPushIn j p md) (ADone (RetVal v (Some (pl j p)))) [EvRet (RetVal v (Some (pl j p)))] []
  | mv_start j p to : mv dbg y a ag (JStart j p to) (JPark j p (Some (y_now y, to, y_now y))) [] []
  | mv_unparked j p tm : a_token ag = true → mv dbg y a ag (JPark j p tm) (JChk j p tm) [] [(a, UToken false)]
  | mv_woken j p tm : a_flag ag = true → mv dbg y a ag (JChk j p tm) (JRe j p) [] []
  | mv_again j p : a_flag ag = false → mv dbg y a ag (JChk j p None) (JPark j p None) [] []
  | mv_clock j p st to d : a_flag ag = false → mv dbg y a ag (JChk j p (Some (st, to, d))) (JElapsed j p st to) [] []
  | mv_repark j p st to : (y_now y - st < to)%N →
      mv dbg y a ag (JElapsed j p st to) (JPark j p (Some (st, to, y_now y + (y_now y - st))%N)) [] []
  | mv_late j p st to : (to ≤ y_now y - st)%N → mv dbg y a ag (JElapsed j p st to) (JTime j p) [] []
  | mv_saved j p : a_flag ag = true → mv dbg y a ag (JTimeIn j p) (JRe j p) [] []
  | mv_timeout j p : a_flag ag = false → (a, false) ∈ waiting_on y (pl j p) → mv dbg y a ag (JTimeIn j p) (ADone RetTimeout) [EvRet RetTimeout] []
  | mv_guard j p x' es : at_load y (pl j p) = Loading → starts dbg SRejoin j p x' es → mv dbg y a ag (JReIn j p) x' es []
  | mv_value j p v : at_load y (pl j p) = Inserted v →
      mv dbg y a ag (JReIn j p) (ADone (RetVal v (Some (pl j p)))) [EvRet (RetVal v (Some (pl j p)))] []
  | mv_polled j p wk : a_flag ag = true → mv dbg y a ag (FPollIn j p wk) (JRe j p) [] [(a, UFlag false)]
  | mv_pending j p wk : a_flag ag = false → mv dbg y a ag (FPollIn j p wk) (FIdle j p wk) [] [(a, UWaker wk)]
  | mv_pass j p x' es : a_flag ag = true → at_load y (pl j p) = Loading → starts dbg SDropFut j p x' es →
      mv dbg y a ag (FDropIn j p) x' es []
  | mv_cancelv j p : a_flag ag = true → at_load y (pl j p) ≠ Loading → mv dbg y a ag (FDropIn j p) (ADone RetCancel) [EvRet RetCancel] []
  | mv_cancel j p : a_flag ag = false → (a, true) ∈ waiting_on y (pl j p) → mv dbg y a ag (FDropIn j p) (ADone RetCancel) [EvRet RetCancel] []
  | mv_put j p rs v wl ws ref : ws = waiting_on y (pl j p) →
      mv dbg y a ag (IIn j p rs v wl) (NGo j p ws (NIns rs v wl ref)) [EvPut (pl j p) v] []
  | mv_noted j p rs v wl ref : mv dbg y a ag (NGo j p [] (NIns rs v wl ref)) (FillWant j p rs v wl ref) [] []
  | mv_given j p : mv dbg y a ag (NGo j p [] NDrop) (ADone RetDrop) [EvRet RetDrop] []
  | mv_note j p b ws nm : mv dbg y a ag (NGo j p ((b, false) :: ws) nm) (NUnpark j p b ws nm) [EvNote b] [(b, UFlag true)]
  | mv_unpark j p b ws nm : mv dbg y a ag (NUnpark j p b ws nm) (NGo j p ws nm) [] [(b, UToken true)]
  | mv_wake j p b ws nm : mv dbg y a ag (NTask j p b ws nm) (NGo j p ws nm) [EvNote b] [(b, UWoke)]
  | mv_fill j p rs v wl ref o :
      mv dbg y a ag (FillIn j p rs v wl ref) (ADone (RetOut o)) [EvSec j (OFill rs (ph_id p) v wl) (SO o); EvRet (RetOut o)] []
  | mv_stale j p rs v wl ref :
      mv dbg y a ag (FillIn j p rs v wl ref) (ADone (RetStale v)) [EvSec j (OFill rs (ph_id p) v wl) (SStale v); EvRet (RetStale v)] []
  | mv_give j p w : list.last (waiting_on y (pl j p)) = Some w → at_load y (pl j p) = Loading →
      mv dbg y a ag (DIn j p) (NGo j p [w] NDrop) [EvGive (pl j p) w.1] []
  | mv_end j p : waiting_on y (pl j p) = [] →
      mv dbg y a ag (DIn j p) (ADone RetDrop) [EvSec j (ODrop (ph_id p)) SGone; EvEnd (pl j p); EvRet RetDrop] [].

(* the steps that are not made by the agents themselves *)
Inductive ext : label P → nat → agent → pc → pc → list (cevent P) → Prop :=
  | ex_wake a ag j p tm : ext (Wake a) a ag (JPark j p tm) (JChk j p tm) []
  | ex_poll0 a ag j k wk : ext (Poll a wk) a ag (FNew j k) (GWant j k (CFut wk)) []
  | ex_poll a ag j p wk0 wk : ext (Poll a wk) a ag (FIdle j p wk0) (FPoll j p wk) []
  | ex_drop0 a ag j k : ext (DropFut a) a ag (FNew j k) (ADone RetCancel) [EvRet RetCancel]
  | ex_drop a ag j p wk0 : ext (DropFut a) a ag (FIdle j p wk0) (FDrop j p) []
  | ex_put a ag j p rs v wl : ext (PutG a rs v wl) a ag (AGuard j p) (IWant j p rs v wl) []
  | ex_dropg a ag j p : ext (DropG a) a ag (AGuard j p) (DWant j p) [].

(* the whole step *)
Record moved y y' a x' (es : list (cevent P)) (us : list (nat * eff)) : Prop := {
  md_agents : y_agents y' = alter (set_apc x') a (effs us (y_agents y));
  md_log : y_log y' = y_log y ++ map (pair a) es;
  md_now : y_now y' = y_now y;
  md_mask : sc_mask (y_cache y') = sc_mask (y_cache y);
  md_len : length (sc_shards (y_cache y')) = length (sc_shards (y_cache y));
  md_load : ∀ l, at_load y' l = at_load y l ∨ (∃ v, EvPut l v ∈ es ∧ at_load y' l = Inserted v) ∨ (EvEnd l ∈ es ∧ at_load y' l = Terminated);
  md_over : ∀ l, EvEnd l ∈ es → at_load y' l = Terminated;
}.
Lemma load_with y l z l' : at_load (with_ph y l z) l' = if decide (l' = l) then ps_load z else at_load y l'.
Proof. unfold at_load, with_ph; simpl. case_decide; [subst; by rewrite fn_lookup_insert|by rewrite fn_lookup_insert_ne]. Qed.
Local Ltac same_ld y l El := intros l'; left; unfold goto, finish, logged, with_agent, at_load, with_ph, set_apc; simpl; destruct (decide (l' = l)) as [->|]; [rewrite fn_lookup_insert; simpl; try exact El; try (symmetry; exact El)|by rewrite fn_lookup_insert_ne].
Local Ltac noend := let l := fresh in let H := fresh in intros l H;
  repeat (apply elem_of_cons in H as [H|H]; [discriminate H|]); by apply elem_of_nil in H.
Local Ltac msplit := split; try done; try (by left); try noend.
Lemma moved_goto y a x' : moved y (goto y a x') a x' [] [].
Proof. msplit. by rewrite app_nil_r. Qed.
Lemma moved_finish y a r : moved y (finish y a r) a (ADone r) [EvRet r] [].
Proof. by msplit. Qed.

Lemma section_eq y a j z y1 r : section y a j z = Ok (y1, r) →
  ∃ s s', shard_at y j = Some s ∧ xexec s z = Ok (s', r) ∧
    y1 = logged (with_cache y (with_shard (y_cache y) j s')) a (EvSec j (op_of z) (res_of r)).
Proof.
  unfold section, on_shard. fold (shard_at y j). destruct (shard_at y j) as [s|]; [|done]. cbn.
  destruct (xexec s z) as [[s' r']|] eqn:E; [|done]. cbn. intros [= <- <-]. by exists s, s'.
Qed.
Lemma len_put y j s' : length (sc_shards (with_shard (y_cache y) j s')) = length (sc_shards (y_cache y)).
Proof. simpl. by rewrite insert_length. Qed.
Lemma all_out s m o s' : Inv s → all_cmd m → xok s (XCmd m) (XO o) s' → o = plain RUnit.
Proof.
  intros HI [Hm Hk] Hx. pose proof (xo_does _ _ _ _ Hx) as H. unfold abs in H. simpl in H.
  destruct H as (_ & H & _). destruct m; try done; simpl in H; naive_solver.
Qed.

Lemma act_mv dbg y a ag y' : CInv y → y_agents y !! a = Some ag → wants a (a_pc ag) = None → act dbg y a ag = Some (Ok y') →
  ∃ x' es us, mv dbg y a ag (a_pc ag) x' es us ∧ moved y y' a x' es us.
Proof.
  intros HC Ha Hw. unfold act. pose proof (po_shape _ _ (ci_pc _ _ _ _ _ HC _ _ Ha)) as Hsh.
  pose proof (λ j r p s, po_handle _ _ (ci_pc _ _ _ _ _ HC _ _ Ha) j p r s) as Hhg.
  destruct (a_pc ag) eqn:Hpc; try done.
  - (* PIn *) destruct (section y a j (XCmd m)) as [[y1 r]|] eqn:E; [|done]. apply section_eq in E as (s & s' & Hs & Hx & ->).
    cbn. destruct r as [o| | | | |]; try done. intros [= <-]. eexists _, _, _. split; [apply (mv_cmd _ _ _ _ j m o)|].
    msplit; simpl; [by rewrite <-app_assoc|apply len_put].
  - (* PAll *) destruct js; [|done]. intros [= <-]. eexists _, _, _. split; [constructor|apply moved_finish].
  - (* PAllIn *) destruct (section y a j (XCmd m)) as [[y1 r]|] eqn:E; [|done]. apply section_eq in E as (s & s' & Hs & Hx & ->).
    cbn. intros [= <-]. destruct (ci_inv _ _ _ _ _ HC _ _ Hs) as [HI _].
    pose proof (xexec_spec LW PI s (XCmd m) HI (proj1 Hsh) ltac:(done)) as H. rewrite Hx in H. simpl in H.
    destruct (xo_cmd _ _ _ _ H) as [o ->]. rewrite (all_out s m o s' HI Hsh H).
    eexists _, _, _. split; [apply mv_all|]. msplit. apply len_put.
  - (* GIn *) unfold get_found. destruct (read_shard y j) as [s|]; [|done]. cbn.
    destruct (search_resident s (hash P k) k) as [[[i r]|]|]; cbn; [| |done]; intros [= <-].
    + eexists _, _, _. split; [eapply (mv_some _ _ _ _ _ _ _ i (r_val r) (if (r_ref r <? MAX_F)%N then _ else _))|].
      { destruct (r_ref r <? MAX_F)%N; [by left|by right]. } by msplit.
    + eexists _, _, _. split; [apply mv_none|]. by msplit.
  - (* GBump *) destruct (read_shard y j) as [s|]; [|done]. cbn. destruct (fetch_add s i) as [s'|]; [|done]. cbn. intros [= <-].
    eexists _, _, _. split; [apply mv_bump|]. msplit; simpl; [by rewrite app_nil_r|apply len_put].
  - (* GHit *) unfold get_hit. destruct (read_shard y j) as [s|]; [|done]. cbn. intros [= <-].
    eexists _, _, _. split; [by eapply mv_hit|]. msplit; simpl; apply len_put.
  - (* GMiss *) unfold get_miss. destruct (read_shard y j) as [s|]; [|done]. cbn. intros [= <-]. destruct c.
    + eexists _, _, _. split; [by eapply mv_miss|]. msplit; simpl; apply len_put.
    + eexists _, _, _. split; [by eapply mv_missj|]. msplit; simpl; [by rewrite app_nil_r|apply len_put].
    + eexists _, _, _. split; [by eapply mv_missf|]. msplit; simpl; [by rewrite app_nil_r|apply len_put].
  - (* JIn *) destruct (section y a j (XJoin k)) as [[y1 r]|] eqn:E; [|done]. apply section_eq in E as (s & s' & Hs & Hx & ->).
    cbn. destruct r as [o|v|p|p|v|]; try done; intros [= <-].
    + eexists _, _, _. split; [apply (mv_jhit _ _ _ _ j k md v)|]. msplit; simpl; [by rewrite <-app_assoc|apply len_put].
    + eexists _, _, _. split; [apply (mv_jwait _ _ _ _ j k md p)|]. msplit; simpl; apply len_put.
    + destruct dbg eqn:Ed; cbn.
      * eexists _, _, _. split; [apply (mv_jnew _ _ _ _ j k md p), ss_dbg; done|]. msplit; simpl; apply len_put.
      * eexists _, _, _. split; [apply (mv_jnew _ _ _ _ j k md p), ss_now; done|]. msplit; simpl; [by rewrite <-app_assoc|apply len_put].
  - (* SIn *) destruct (at_load y (pl j p)); try done. intros [= <-]. eexists _, _, _. split; [apply mv_assert|].
    destruct sm; simpl; [by msplit|by msplit|apply moved_goto].
  - (* JPushIn *) unfold push_waiter. destruct (at_load y (pl j p)) eqn:El; try done; intros [= <-].
    + eexists _, _, _. split; [by apply mv_push|]. destruct md as [[to|]|wk]; msplit; same_ld y (pl j p) El.
    + eexists _, _, _. split; [by apply mv_pushv|]. apply moved_finish.
  - (* JStart *) intros [= <-]. unfold parked_at. simpl. rewrite N.sub_diag, N.add_0_r. eexists _, _, _. split; [apply mv_start|apply moved_goto].
  - (* JPark *) destruct (a_token ag) eqn:Et; [|done]. intros [= <-]. eexists _, _, _. split; [by apply mv_unparked|]. msplit. by rewrite app_nil_r.
  - (* JChk *) intros [= <-]. destruct (a_flag ag) eqn:Ef; [|destruct tm as [[[st to] d]|]].
    + eexists _, _, _. split; [by apply mv_woken|apply moved_goto].
    + eexists _, _, _. split; [by apply mv_clock|apply moved_goto].
    + eexists _, _, _. split; [by apply mv_again|apply moved_goto].
  - (* JElapsed *) intros [= <-]. destruct (N.ltb_spec (y_now y - st) to).
    + eexists _, _, _. split; [by apply mv_repark|apply moved_goto].
    + eexists _, _, _. split; [by apply (mv_late _ _ _ _ j p st to)|apply moved_goto].
  - (* JTimeIn *) destruct (a_flag ag) eqn:Ef.
    + intros [= <-]. eexists _, _, _. split; [by apply mv_saved|apply moved_goto].
    + unfold leave. destruct (list_find _ _) as [[i w]|] eqn:E; [|done]. cbn. intros [= <-].
      apply list_find_Some in E as (E & <- & _). apply elem_of_list_lookup_2 in E.
      eexists _, _, _. split; [by apply mv_timeout|]. msplit. same_ld y (pl j p) (eq_refl (at_load y (pl j p))).
  - (* JReIn *) destruct (at_load y (pl j p)) eqn:El; try done; intros [= <-].
    + unfold start_loading. destruct dbg eqn:Ed.
      * eexists _, _, _. split; [apply mv_guard; [done|by apply ss_dbg]|apply moved_goto].
      * eexists _, _, _. split; [apply mv_guard; [done|by apply ss_now]|by msplit].
    + eexists _, _, _. split; [by apply mv_value|apply moved_finish].
  - (* FPollIn *) intros [= <-]. destruct (a_flag ag) eqn:Ef.
    + eexists _, _, _. split; [by apply mv_polled|]. msplit. by rewrite app_nil_r.
    + eexists _, _, _. split; [by apply mv_pending|]. msplit. by rewrite app_nil_r.
  - (* FDropIn *) destruct (a_flag ag) eqn:Ef.
    + destruct (at_load y (pl j p)) eqn:El; intros [= <-].
      * unfold start_loading. destruct dbg eqn:Ed.
        -- eexists _, _, _. split; [apply mv_pass; [done|done|by apply ss_dbg]|apply moved_goto].
        -- eexists _, _, _. split; [apply mv_pass; [done|done|by apply ss_now]|apply moved_goto].
      * eexists _, _, _. split; [apply mv_cancelv; [done|by rewrite El]|apply moved_finish].
      * eexists _, _, _. split; [apply mv_cancelv; [done|by rewrite El]|apply moved_finish].
    + unfold leave. destruct (list_find _ _) as [[i w]|] eqn:E; [|done]. cbn. intros [= <-].
      apply list_find_Some in E as (E & <- & _). apply elem_of_list_lookup_2 in E.
      eexists _, _, _. split; [by apply mv_cancel|]. msplit. same_ld y (pl j p) (eq_refl (at_load y (pl j p))).
  - (* IIn *) intros [= <-]. eexists _, _, _. split; [by apply mv_put|]. msplit. intros l. destruct (decide (l = pl j p)) as [->|].
    + right; left. exists v. split; [left|]. unfold at_load; simpl. by rewrite fn_lookup_insert.
    + left. unfold at_load; simpl. by rewrite fn_lookup_insert_ne.
  - (* NGo *) destruct ws as [|[b [|]] ws]; [destruct nm| |]; try done; intros [= <-].
    + eexists _, _, _. split; [by apply mv_noted|apply moved_goto].
    + eexists _, _, _. split; [by apply mv_given|apply moved_finish].
    + eexists _, _, _. split; [by apply mv_note|]. by msplit.
  - (* NUnpark *) intros [= <-]. eexists _, _, _. split; [by apply mv_unpark|]. msplit. by rewrite app_nil_r.
  - (* NTask *) intros [= <-]. eexists _, _, _. split; [by apply mv_wake|]. by msplit.
  - (* FillIn *) destruct (section y a j (XFill rs p referenced v wl)) as [[y1 r]|] eqn:E; [|done].
    apply section_eq in E as (s & s' & Hs & Hx & ->). destruct (ci_inv _ _ _ _ _ HC _ _ Hs) as [HI _].
    pose proof (xexec_spec LW PI s (XFill rs p referenced v wl) HI I ltac:(intros p0 [= <-]; by eapply Hhg)) as H. rewrite Hx in H. simpl in H.
    cbn. destruct r as [o| | | |v'|]; try done; intros [= <-].
    + eexists _, _, _. split; [apply (mv_fill _ _ _ _ j p rs v wl referenced o)|]. msplit; simpl; [by rewrite <-app_assoc|apply len_put].
    + assert (v' = v) as ->. { pose proof (xo_does _ _ _ _ H) as Hd. unfold abs in Hd. simpl in Hd. naive_solver. }
      eexists _, _, _. split; [apply (mv_stale _ _ _ _ j p rs v wl referenced)|]. msplit; simpl; [by rewrite <-app_assoc|apply len_put].
  - (* DIn *) destruct (list.last (waiting_on y (pl j p))) as [w|] eqn:Hl.
    + destruct (step_give y a ag j p w HC Ha Hpc Hl) as [Hld _]. rewrite Hld. cbn. intros [= <-].
      eexists _, _, _. split; [by apply (mv_give _ _ _ _ j p w)|]. msplit. same_ld y (pl j p) Hld.
    + apply list.last_None in Hl.
      destruct (section (with_ph y (pl j p) (PSt [] Terminated)) a j (XDrop p)) as [[y1 r]|] eqn:E; [|done].
      apply section_eq in E as (s & s' & Hs & Hx & ->). cbn. intros [= <-].
      assert (r = XGone) as ->. { cbn in Hx. destruct (remove_placeholder s p); [|done]. cbn in Hx. by injection Hx as _ <-. }
      eexists _, _, _. split; [by apply (mv_end _ _ _ _ j p)|]. msplit; simpl; [by rewrite <-!app_assoc|apply len_put| |].
      { intros l. destruct (decide (l = pl j p)) as [->|].
      * right; right. split; [right; left|]. unfold at_load; simpl. by rewrite fn_lookup_insert.
      * left. unfold at_load; simpl. by rewrite fn_lookup_insert_ne. }
      intros l H. apply elem_of_cons in H as [H|H]; [done|]. apply elem_of_cons in H as [H|H]; [|apply elem_of_cons in H as [H|H]; [done|by apply elem_of_nil in H]]. injection H as ->.
      unfold at_load; simpl. by rewrite fn_lookup_insert.
Qed.

(* every step *)
Inductive stepped (dbg : bool) y y' : label P → Prop :=
  | sd_go a ag x' es us : y_agents y !! a = Some ag → mv dbg y a ag (a_pc ag) x' es us → moved y y' a x' es us → stepped dbg y y' (Go a)
  | sd_ext lb a ag x' es : y_agents y !! a = Some ag → ext lb a ag (a_pc ag) x' es → moved y y' a x' es [] → stepped dbg y y' lb
  | sd_spawn c x : first_pc y c = Some (Ok x) →
      y' = logged (add_agent y (Agent c (y_now y) x false false 0 None)) (length (y_agents y)) (EvCall c) → stepped dbg y y' (Spawn c)
  | sd_tick d : y' = with_now y (y_now y + d)%N → stepped dbg y y' (Tick d).
Lemma cstep_stepped dbg y lb y' : CInv y → cstep dbg y lb = Some (Ok y') → stepped dbg y y' lb.
Proof.
  intros HC. destruct lb as [c|a|a|d|a wk|a|a rs v wl|a]; simpl.
  - destruct (first_pc y c) as [[x|]|] eqn:E; try done. cbn. intros [= <-]. by econstructor.
  - unfold go. destruct (y_agents y !! a) as [ag|] eqn:Ha; [|done]. destruct (wants a (a_pc ag)) as [h|] eqn:Hw.
    + destruct (free y h) eqn:Hf; [|done]. intros [= <-]. eapply sd_go; [done|by eapply mv_enter|apply moved_goto].
    + intros H. destruct (act_mv _ _ _ _ _ HC Ha Hw H) as (x' & es & us & H1 & H2). by eapply sd_go.
  - destruct (y_agents y !! a) as [ag|] eqn:Ha; [|done]. simpl. destruct (a_pc ag) eqn:Hpc; try done. intros [= <-].
    eapply (sd_ext _ _ _ _ a ag); [done|rewrite Hpc; constructor|apply moved_goto].
  - intros [= <-]. by econstructor.
  - destruct (y_agents y !! a) as [ag|] eqn:Ha; [|done]. simpl. destruct (a_pc ag) eqn:Hpc; try done; intros [= <-].
    + eapply (sd_ext _ _ _ _ a ag); [done|rewrite Hpc; constructor|apply moved_goto].
    + eapply (sd_ext _ _ _ _ a ag); [done|rewrite Hpc; constructor|apply moved_goto].
  - destruct (y_agents y !! a) as [ag|] eqn:Ha; [|done]. simpl. destruct (a_pc ag) eqn:Hpc; try done; intros [= <-].
    + eapply (sd_ext _ _ _ _ a ag); [done|rewrite Hpc; constructor|apply moved_finish].
    + eapply (sd_ext _ _ _ _ a ag); [done|rewrite Hpc; constructor|apply moved_goto].
  - destruct (y_agents y !! a) as [ag|] eqn:Ha; [|done]. simpl. destruct (a_pc ag) eqn:Hpc; try done; intros [= <-].
    eapply (sd_ext _ _ _ _ a ag); [done|rewrite Hpc; constructor|apply moved_goto].
  - destruct (y_agents y !! a) as [ag|] eqn:Ha; [|done]. simpl. destruct (a_pc ag) eqn:Hpc; try done; intros [= <-].
    eapply (sd_ext _ _ _ _ a ag); [done|rewrite Hpc; constructor|apply moved_goto].
Qed.

(* ---- reading the agents after a step ---- *)
Definition eff_on b (us : list (nat * eff)) ag : agent := foldl (λ (ag : agent) u, if decide (u.1 = b) then apply_eff u.2 ag else ag) ag us.
Lemma effs_lookup us (ags : list agent) b : effs us ags !! b = eff_on b us <$> ags !! b.
Proof.
  revert ags. induction us as [|[c u] us IH]; intros ags; simpl.
  - by destruct (ags !! b).
  - unfold effs in *. simpl. rewrite IH. unfold eff_on. simpl. destruct (decide (c = b)) as [->|Hne].
    + rewrite list_lookup_alter. by destruct (ags !! b).
    + by rewrite list_lookup_alter_ne.
Qed.
Lemma md_lookup y y' a x' es us b : moved y y' a x' es us →
  y_agents y' !! b = (λ bg, if decide (b = a) then set_apc x' (eff_on b us bg) else eff_on b us bg) <$> y_agents y !! b.
Proof.
  intros M. rewrite (md_agents _ _ _ _ _ _ M). case_decide.
  - subst. rewrite list_lookup_alter, effs_lookup. by destruct (y_agents y !! a).
  - rewrite list_lookup_alter_ne by done. rewrite effs_lookup. done.
Qed.
Lemma md_length y y' a x' es us : moved y y' a x' es us → length (y_agents y') = length (y_agents y).
Proof.
  intros M. rewrite (md_agents _ _ _ _ _ _ M), alter_length. clear M. generalize (y_agents y). induction us as [|u us IH]; intros ags; [done|].
  unfold effs in *. simpl. rewrite IH. apply alter_length.
Qed.
Lemma eff_on_keeps {A} (f : agent → A) b us ag : (∀ u ag, f (apply_eff u ag) = f ag) → f (eff_on b us ag) = f ag.
Proof. intros Hf. revert ag. induction us as [|u us IH]; intros ag; [done|]. simpl. rewrite IH. case_decide; [apply Hf|done]. Qed.
Lemma eff_pc b us ag : a_pc (eff_on b us ag) = a_pc ag.
Proof. apply (eff_on_keeps a_pc). by intros []. Qed.
Lemma eff_call b us ag : a_call (eff_on b us ag) = a_call ag.
Proof. apply (eff_on_keeps a_call). by intros []. Qed.
Lemma eff_born b us ag : a_born (eff_on b us ag) = a_born ag.
Proof. apply (eff_on_keeps a_born). by intros []. Qed.
(* what happened to an agent *)
Lemma md_case y y' a ag x' es us b bg' : moved y y' a x' es us → y_agents y !! a = Some ag → y_agents y' !! b = Some bg' →
  ∃ bg, y_agents y !! b = Some bg ∧ a_call bg' = a_call bg ∧ a_born bg' = a_born bg ∧
    a_flag bg' = a_flag (eff_on b us bg) ∧ a_token bg' = a_token (eff_on b us bg) ∧
    a_waker bg' = a_waker (eff_on b us bg) ∧ a_woken bg' = a_woken (eff_on b us bg) ∧
    ((b = a ∧ bg = ag ∧ a_pc bg' = x') ∨ (b ≠ a ∧ a_pc bg' = a_pc bg)).
Proof.
  intros M Ha Hb. rewrite (md_lookup _ _ _ _ _ _ b M) in Hb. destruct (y_agents y !! b) as [bg|] eqn:E; [|done]. simpl in Hb.
  injection Hb as <-. exists bg. rewrite <-(eff_call b us bg), <-(eff_born b us bg). destruct (decide (b = a)) as [->|Hne]; split_and!; try done.
  - left. rewrite Ha in E. by injection E as ->.
  - right. split; [done|]. apply eff_pc.
Qed.
End concmove.
