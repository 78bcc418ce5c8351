(* What the cache does depends on the request states only through before_evict: every function
   that passes one along gives the same cache and the same log for all of them. *)
From Verif Require Export Listen.

Section liststate.
Context {P : Params} (SB : state_blind P).
Implicit Types (s : shard P) (l m : lcs P).

Inductive rel {A C} (Q : A → C → Prop) : res A → res C → Prop :=
  | rel_ok a c : Q a c → rel Q (Ok a) (Ok c)
  | rel_fail f : rel Q (Fail f) (Fail f).
Lemma rel_bind {A C A' C'} (Q : A → C → Prop) (Q' : A' → C' → Prop) u u' (k : A → res A') (k' : C → res C') :
  rel Q u u' → (∀ a c, Q a c → rel Q' (k a) (k' c)) → rel Q' (rbind u k) (rbind u' k').
Proof. intros [a c H|f] Hk; [by apply Hk|constructor]. Qed.
Lemma rel_same {A A' C'} (Q' : A' → C' → Prop) (u : res A) (k : A → res A') (k' : A → res C') :
  (∀ a, rel Q' (k a) (k' a)) → rel Q' (rbind u k) (rbind u k').
Proof. intros Hk. destruct u; [apply Hk|constructor]. Qed.

Definition lq l m : Prop := llog l = llog m.
Definition lq2 (a c : shard P * lcs P) : Prop := a.1 = c.1 ∧ lq a.2 c.2.
Definition lq3 {A} (a c : shard P * lcs P * A) : Prop := lq2 a.1 c.1 ∧ a.2 = c.2.
Lemma q_before l m k v : lq l m → ∃ l1 m1 v1, call_before l k v = (l1, v1) ∧ call_before m k v = (m1, v1) ∧ lq l1 m1.
Proof.
  intros H. unfold call_before. pose proof (SB (lrs l) (lrs m) k v) as E.
  destruct (before_evict P (lrs l) k v) as [r1 v1], (before_evict P (lrs m) k v) as [r2 v2]. cbn in E. subst v2.
  do 3 eexists. split_and!; [reflexivity|reflexivity|]. unfold lq in *. cbn. by rewrite H.
Qed.
Lemma q_evict l m k v : lq l m → lq (call_evict l k v) (call_evict m k v).
Proof. unfold lq, call_evict. cbn. by intros ->. Qed.
Ltac fin := first [done | by constructor | constructor; split_and!; cbn; first [done|by apply q_evict|by repeat apply q_evict]].
Ltac go := repeat match goal with
  | |- rel _ (rbind ?u _) (rbind ?u _) => apply rel_same; intros ?
  | |- rel _ (Fail _) (Fail _) => constructor
  | |- rel _ (if ?b then _ else _) (if ?b then _ else _) => destruct b eqn:?
  | |- rel _ (match ?x with _ => _ end) (match ?x with _ => _ end) => destruct x eqn:?
  | |- rel _ (Ok _) (Ok _) => constructor
  | |- lq3 _ _ => split
  | |- lq2 _ _ => split
  end; cbn [fst snd]; try done; try (by apply q_evict).
Ltac before H := match goal with |- context [call_before ?l ?k ?v] => destruct (q_before l _ k v H) as (?l1 & ?m1 & ?v1 & -> & -> & ?Hq) end.

Lemma q_hot_evict s l m i r : lq l m → rel lq3 (hot_evict s l i r) (hot_evict s m i r).
Proof. intros H. unfold hot_evict. apply rel_same. intros s1. before H. cbv zeta. go. Qed.
Lemma q_hot_loop n : ∀ s l m i u, lq l m → rel lq3 (advance_hot_loop n s l i u) (advance_hot_loop n s m i u).
Proof.
  induction n as [|n IH]; intros s l m i u H; [constructor|]. cbn [advance_hot_loop]. go; try (by apply IH); by apply q_hot_evict.
Qed.
Lemma q_hot s l m : lq l m → rel lq3 (advance_hot s l) (advance_hot s m).
Proof. intros H. unfold advance_hot. destruct (a_head _); [by apply q_hot_loop|]. go. Qed.
Lemma q_trim n : ∀ s l m, lq l m → rel lq2 (trim_hot n s l) (trim_hot n s m).
Proof.
  induction n as [|n IH]; intros s l m H; [constructor|]. cbn [trim_hot]. destruct (_ <? _)%N; [|go].
  eapply rel_bind; [by apply q_hot|]. intros [[s1 l1] b1] [[s2 m1] b2] [[Hs Hq] Hb]. cbn in *. subst. destruct b2; [by apply IH|go].
Qed.
Lemma q_promote s l m i r : lq l m → rel lq3 (cold_promote s l i r) (cold_promote s m i r).
Proof.
  intros H. unfold cold_promote. cbv zeta. go.
  eapply rel_bind; [by apply q_trim|]. intros [x1 l1] [x2 m1] [Hs Hq]. cbn in *. subst. go.
Qed.
Lemma q_cold_evict s l m i r : lq l m → rel lq3 (cold_evict s l i r) (cold_evict s m i r).
Proof. intros H. unfold cold_evict. apply rel_same. intros s1. before H. cbv zeta. go. Qed.
Lemma q_cold_loop n : ∀ s l m i, lq l m → rel lq3 (advance_cold_loop n s l i) (advance_cold_loop n s m i).
Proof.
  induction n as [|n IH]; intros s l m i H; [constructor|]. cbn [advance_cold_loop]. go; try (by apply IH); first [by apply q_promote|by apply q_cold_evict|by apply q_hot].
Qed.
Lemma q_cold s l m : lq l m → rel lq3 (advance_cold s l) (advance_cold s m).
Proof. intros H. unfold advance_cold. destruct (a_head _); [by apply q_cold_loop|by apply q_hot]. Qed.
Lemma q_loop n : ∀ s l m e, lq l m → rel lq2 (evict_loop n s l e) (evict_loop n s m e).
Proof.
  induction n as [|n IH]; intros s l m e H; [constructor|]. cbn [evict_loop]. do 2 (apply rel_same; intros ?). destruct (_ <? _)%N; [|go].
  eapply rel_bind; [by apply q_cold|]. intros [[s1 l1] b1] [[s2 m1] b2] [[Hs Hq] Hb]. cbn in *. subst. destruct b2; [by apply IH|go].
Qed.
Lemma q_until s l m e : lq l m → rel lq2 (evict_until s l e) (evict_until s m e).
Proof. apply q_loop. Qed.
Lemma q_existing s l m i k v w st : lq l m → rel lq3 (insert_existing s l i k v w st) (insert_existing s m i k v w st).
Proof.
  intros H. unfold insert_existing. apply rel_same. intros e. cbv zeta. destruct (match e with Resident _ => _ | _ => _ end) as [[es rf]|]; [|go].
  apply (rel_bind lq2).
  - destruct e; go.
  - intros [s1 l1] [s2 m1] [Hs Hq]. cbn in *. subst. eapply rel_bind; [by apply q_until|]. intros [s3 l3] [s4 m3] [Hs Hq3]. cbn in *. subst. go.
Qed.
Lemma q_overweight s l m h k v st : lq l m → rel lq3 (handle_insert_overweight s l h k v st) (handle_insert_overweight s m h k v st).
Proof.
  intros H. unfold handle_insert_overweight. apply rel_same. intros z. apply (rel_bind lq2).
  - go. all: match goal with |- lq (match ?o with _ => _ end) _ => destruct o as [[? ?]|] | _ => idtac end; try done; by apply q_evict.
  - intros [s1 l1] [s2 m1] [Hs Hq]. cbn in *. subst. go.
Qed.
Lemma q_start s l m key value : lq l m → ∃ l1 m1 v w (over : bool),
  (if (sh_target_hot s <? weight P key value)%N && negb (pinned P key value) then
      let '(l, value) := call_before l key value in
      (l, value, weight P key value, (sh_target_hot s <? weight P key value)%N)
    else (l, value, weight P key value, false)) = (l1, v, w, over) ∧
  (if (sh_target_hot s <? weight P key value)%N && negb (pinned P key value) then
      let '(l, value) := call_before m key value in
      (l, value, weight P key value, (sh_target_hot s <? weight P key value)%N)
    else (m, value, weight P key value, false)) = (m1, v, w, over) ∧ lq l1 m1.
Proof.
  intros H. destruct (_ && _); [|by do 5 eexists]. before H. by do 5 eexists.
Qed.
Ltac start H := match goal with |- context [if (sh_target_hot ?s <? weight P ?k ?v)%N && _ then _ else _] =>
  destruct (q_start s _ _ k v H) as (?l1 & ?m1 & ?v1 & ?w1 & ?ov & -> & -> & ?Hq) end.
Lemma q_insert s l m h k v st : lq l m → rel lq3 (sh_insert s l h k v st) (sh_insert s m h k v st).
Proof.
  intros H. unfold sh_insert. cbv zeta. start H. destruct ov; [by apply q_overweight|].
  apply rel_same. intros [i|]; [by apply q_existing|]. destruct (is_replace st); [go|]. apply rel_same. intros hw.
  eapply rel_bind; [by apply q_until|]. intros [x1 y1] [x2 z1] [Hs Hq']. cbn in *. subst. go.
Qed.
Lemma q_fill s l m p b v : lq l m → rel lq3 (replace_placeholder s l p b v) (replace_placeholder s m p b v).
Proof.
  intros H. unfold replace_placeholder. destruct (slab_get _ _) as [[[| |q] ?]|]; try by go. destruct (same_as _ _); [|by go]. cbv zeta.
  start H. destruct ov.
  - eapply (rel_bind lq2); [unfold handle_overweight_replace_placeholder; by go|]. intros [x1 y1] [x2 z1] [Hs Hq']. cbn in *. subst. go.
  - do 2 (apply rel_same; intros ?). apply rel_same. intros x. destruct (negb _); [|by go]. apply rel_same. intros x'.
    eapply rel_bind; [by apply q_until|]. intros [x1 y1] [x2 z1] [Hs Hq']. cbn in *. subst. go.
Qed.

Definition oq (a c : shard P * out P) : Prop := a.1 = c.1 ∧ same_seen a.2 c.2.
Lemma heard_begin rs (l : lcs P) e : (∀ x, x ∈ e → ∃ r, x = LEnd r) → heard (LBegin rs :: hooks l ++ e) = llog l.
Proof.
  intros He. unfold heard, hooks. cbn. rewrite omap_app. replace (omap _ e) with (@nil (event P)).
  - rewrite app_nil_r. by induction (llog l) as [|x t IH]; cbn; [|rewrite IH].
  - symmetry. induction e as [|x e IH]; [done|]. destruct (He x ltac:(left)) as [r ->]. cbn. apply IH. intros y Hy. apply He. by right.
Qed.
Lemma heard_finished rs l wl r c : heard (o_log (finished rs l wl r c)) = llog l.
Proof. apply heard_begin. destruct wl; [by intros x ?%elem_of_nil|]. intros x ->%elem_of_list_singleton. by eexists. Qed.
Lemma seen_finished rs rs' l m wl r c : lq l m → same_seen (finished rs l wl r c) (finished rs' m wl r c).
Proof. intros H. split_and!; [|done|done]. by rewrite !heard_finished. Qed.
Lemma q_ufill s rs rs' p v wl r c : rel oq (u_fill s rs p v wl r c) (u_fill s rs' p v wl r c).
Proof.
  unfold u_fill. eapply rel_bind; [by apply q_fill|]. intros [[x1 y1] o1] [[x2 z1] o2] [[Hs Hq] Ho]. cbn in *. subst.
  apply rel_same. intros _. constructor. split; [done|]. by apply seen_finished.
Qed.
Lemma seen_refl (x : out P) : same_seen x x. Proof. by split_and!. Qed.
Lemma rel_refl (u : res (shard P * out P)) : rel oq u u.
Proof. destruct u; constructor. by split; [|apply seen_refl]. Qed.
Lemma q_guard s rs rs' p g : rel oq (use_guard s rs p g) (use_guard s rs' p g).
Proof. destruct g; [apply q_ufill|apply rel_refl|apply rel_refl]. Qed.
Lemma q_exec s c r : rel oq (exec s c) (exec s (restate r c)).
Proof.
  destruct c; cbn [restate exec]; try apply rel_refl.
  - unfold u_replace. eapply rel_bind; [by apply q_insert|]. intros [[x1 y1] o1] [[x2 z1] o2] [[Hs Hq] Ho]. cbn in *. subst.
    destruct o2; constructor; (split; [done|]); [|by apply seen_finished]. split_and!; [|done|done]. cbn.
    pose proof (heard_begin rs y1 [] ltac:(by intros ? ?%elem_of_nil)) as E1. pose proof (heard_begin r z1 [] ltac:(by intros ? ?%elem_of_nil)) as E2.
    rewrite app_nil_r in E1, E2. etrans; [exact E2|]. etrans; [symmetry; exact Hq|]. by symmetry.
  - unfold u_insert. eapply rel_bind; [by apply q_insert|]. intros [[x1 y1] o1] [[x2 z1] o2] [[Hs Hq] Ho]. cbn in *. subst.
    apply rel_same. intros _. constructor. split; [done|]. by apply seen_finished.
  - unfold u_get_or_insert. apply rel_same. intros [x [[i v]|[p ?]]]; [apply rel_refl|]. destruct w; [|apply rel_refl].
    eapply rel_bind; [by apply q_ufill|]. intros [x1 o1] [x2 o2] [Hs (Hh & _ & _)]. cbn in *. subst. constructor. split; [done|]. by split_and!.
  - unfold u_get_mut_or_insert. apply rel_same. intros [x [[i v]|[p ?]]]; [apply rel_refl|]. destruct w; [|apply rel_refl].
    eapply rel_bind; [by apply q_ufill|]. intros [x1 o1] [x2 o2] [Hs (Hh & _ & _)]. cbn in *. subst.
    apply rel_same. intros [x3 sn]. constructor. split; [done|]. by split_and!.
  - unfold u_ref_or_guard. apply rel_same. intros [x [[i v]|[p ?]]]; [apply rel_refl|apply q_guard].
  - unfold u_mut_or_guard. apply rel_same. intros [x [[i v]|[p ?]]]; [apply rel_refl|apply q_guard].
Qed.
Lemma q_run h h' : Forall2 same_but_state h h' → ∀ s s1 os, run s h = Ok (s1, os) →
  ∃ os', run s h' = Ok (s1, os') ∧ Forall2 same_seen os os'.
Proof.
  induction 1 as [|c c' h h' [r ->] _ IH]; intros s s1 os E; cbn [run] in *.
  - injection E as -> <-. by eexists.
  - pose proof (q_exec s c r) as HR. destruct (exec s c) as [[x o]|]; [|done]. inversion HR as [? [x' o'] [Hs Ho] E1 E2|]. cbn in *. subst x'.
    destruct (run x h) as [[x1 os1]|] eqn:E3; [|done]. cbn in E. injection E as -> <-.
    destruct (IH _ _ _ E3) as (os' & -> & HF). cbn. eexists. split; [done|]. by constructor.
Qed.

(* ---- the sync cache ---- *)
Definition x_restate (r : RS P) (x : sect P) : sect P :=
  match x with XCmd m => XCmd (restate r m) | XFill _ p b v wl => XFill r p b v wl | x => x end.
Definition xsame (x x' : xret P) : Prop := match x, x' with XO o, XO o' => same_seen o o' | _, _ => x = x' end.
Definition xq {A} (a c : A * xret P) : Prop := a.1 = c.1 ∧ xsame a.2 c.2.
Lemma xsame_refl x : xsame x x. Proof. destruct x; try done; apply seen_refl. Qed.
Lemma q_xexec s x r : rel xq (xexec s x) (xexec s (x_restate r x)).
Proof.
  destruct x as [m|k|rs p b v wl|p]; cbn [x_restate xexec].
  - eapply rel_bind; [apply q_exec|]. intros [x1 o1] [x2 o2] [Hs Ho]. cbn in *. subst. constructor. by split.
  - apply rel_same. intros [x y]. constructor. split; [done|apply xsame_refl].
  - eapply rel_bind; [by apply q_fill|]. intros [[x1 y1] o1] [[x2 z1] o2] [[Hs Hq] Ho]. cbn in *. subst. constructor. split; [done|].
    destruct o2; [done|]. by apply seen_finished.
  - apply rel_same. intros y. constructor. by split.
Qed.
Lemma q_on_key (c : scache P) k x r : rel xq (on_key c k x) (on_key c k (x_restate r x)).
Proof.
  unfold on_key. apply rel_same. intros j. unfold on_shard. apply rel_same. intros s.
  eapply rel_bind; [apply (q_xexec _ _ r)|]. intros [x1 o1] [x2 o2] [Hs Ho]. cbn in *. subst. constructor. by split.
Qed.
Definition cq (a c : scache P * out P) : Prop := a.1 = c.1 ∧ same_seen a.2 c.2.
Lemma crel_refl (u : res (scache P * out P)) : rel cq u u.
Proof. destruct u; constructor. by split; [|apply seen_refl]. Qed.
Lemma q_sguard (c : scache P) k rs r p g : rel cq (s_use_guard c k rs p g) (s_use_guard c k r p g).
Proof.
  destruct g; [|apply crel_refl]. cbn [s_use_guard]. eapply rel_bind; [apply (q_on_key _ _ (XFill rs p false v wl) r)|].
  intros [x1 o1] [x2 o2] [Hs Ho]. cbn in *. subst. destruct o1, o2; try discriminate Ho; constructor; by split.
Qed.
Lemma q_sc_exec (c : scache P) (m : scmd P) r : rel cq (sc_exec c m) (sc_exec c (s_restate r m)).
Proof.
  destruct m as [k m|m|rs k g|rs k w]; cbn [s_restate sc_exec].
  - eapply rel_bind; [apply (q_on_key _ _ (XCmd m) r)|].
    intros [x1 o1] [x2 o2] [Hs Ho]. cbn in *. subst. destruct o1, o2; try discriminate Ho; constructor; by split.
  - apply crel_refl.
  - apply rel_same. intros [c1 [v|p]]; [apply crel_refl|apply q_sguard].
  - apply rel_same. intros [c1 [v|p]]; [apply crel_refl|]. destruct w.
    + eapply rel_bind; [apply (q_sguard _ _ _ r)|]. intros [x1 o1] [x2 o2] [Hs (Hh & _ & _)]. cbn in *. subst. constructor. split; [done|]. by split_and!.
    + apply rel_same. intros [c2 o]. constructor. split; [done|apply seen_refl].
Qed.
Lemma q_sc_run h h' : Forall2 s_same_but_state h h' → ∀ (c c1 : scache P) os, sc_run c h = Ok (c1, os) →
  ∃ os', sc_run c h' = Ok (c1, os') ∧ Forall2 same_seen os os'.
Proof.
  induction 1 as [|m m' h h' [r ->] _ IH]; intros c c1 os E; cbn [sc_run] in *.
  - injection E as -> <-. by eexists.
  - pose proof (q_sc_exec c m r) as HR. destruct (sc_exec c m) as [[x o]|]; [|done]. inversion HR as [? [x' o'] [Hs Ho] E1 E2|]. cbn in *. subst x'.
    destruct (sc_run x h) as [[x1 os1]|] eqn:E3; [|done]. cbn in E. injection E as -> <-.
    destruct (IH _ _ _ E3) as (os' & -> & HF). cbn. eexists. split; [done|]. by constructor.
Qed.
Lemma api_restate (m : scmd P) r : api m → api (s_restate r m).
Proof. destruct m as [k m|m|rs k g|rs k w]; try done. cbn. by destruct m. Qed.
Lemma q_s_history budget ghosts cap e (h h' : list (scmd P)) os (c : scache P) : Forall2 s_same_but_state h h' → s_history budget ghosts cap e h os c →
  ∃ os', s_history budget ghosts cap e h' os' c ∧ Forall2 same_seen os os'.
Proof.
  intros HF [Ha Hr]. destruct (q_sc_run _ _ HF _ _ _ Hr) as (os' & Hr' & Ho). exists os'. split; [|done]. split; [|done].
  clear -HF Ha. induction HF as [|m m' h h' [r ->] _ IH]; [done|]. inversion Ha; subst. constructor; [by apply api_restate|by apply IH].
Qed.
End liststate.
