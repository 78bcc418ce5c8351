(* Where the sections of a load happen, loads of the same key, and what became of a load. *)
From stdpp Require Import prelude list functions.
From Verif Require Export ConcFacts.

Section concfacts.
Context {P : Params} (LW : Lawful P) (PI : ptr_ids P = true).
Context {budget ghosts cap e : N}.
Notation K := (K P). Notation V := (V P). Notation RS := (RS P).
Notation shard := (shard P). Notation sys := (sys P). Notation pc := (pc P). Notation agent := (agent P).
Notation CInv := (CInv budget ghosts cap e). Notation Reach := (@Reach P (full P) budget ghosts cap e).
Implicit Types (s : shard) (k : K) (v : V) (rs : RS) (p : plh) (a b : nat) (l : loc) (j : nat) (y : sys) (x : pc) (ag : agent).
Implicit Types (c : call P) (h es : list (cevent P)) (g : list (nat * cevent P)).

Local Ltac inl H := repeat match type of H with
  | _ ∈ _ :: _ => apply elem_of_cons in H as [H|H]; [try (discriminate H)|]
  | _ ∈ [] => by apply elem_of_nil in H
  end.

Local Ltac fs := repeat (apply Forall_cons; split); try done; try (by apply Forall_nil).

(* ---- the sections of a call concern its key ---- *)
Definition fits (mask : N) c h (ev : cevent P) : Prop :=
  match ev with
  | EvSec j (OCmd m) r => (∃ o, r = SO o) ∧ (c = KCmd m ∨ ∃ k, m = CGet k ∧ loads_key c = Some k) ∧
      match key_of m with Some k => j = shard_idx mask k | None => True end
  | EvSec j (OJoin k) _ => loads_key c = Some k ∧ j = shard_idx mask k
  | EvSec j (OFill _ id v _) _ => ∃ k, loads_key c = Some k ∧ j = shard_idx mask k ∧ EvPut (j, id) v ∈ h
  | EvSec j (ODrop id) _ => EvEnd (j, id) ∈ h
  | _ => True
  end.
Lemma fits_mono mask c h h' ev : (∀ z, z ∈ h → z ∈ h') → fits mask c h ev → fits mask c h' ev.
Proof. intros Hs. destruct ev; try done. destruct x; simpl; try done; [|by intros ?%Hs]. intros (k & ? & ? & ?%Hs). eauto. Qed.
Lemma asked_fits mask c j k h : loads_key c = Some k → j = shard_idx mask k → Forall (fits mask c h) (asked j c k).
Proof. intros Hk ->. fs; simpl; split_and!; eauto 6. Qed.
Lemma began_fits mask c j k id h : loads_key c = Some k → j = shard_idx mask k → Forall (fits mask c h) (began j c k id).
Proof. intros Hk Hj. apply Forall_app. split; [by apply asked_fits|]. by fs. Qed.
Lemma queued_fits mask c j k id h : loads_key c = Some k → j = shard_idx mask k → Forall (fits mask c h) (queued j c k id).
Proof. intros Hk Hj. apply Forall_app. split; [by apply asked_fits|]. by fs. Qed.
Lemma guarded_fits mask c j k id h0 h : guarded j c k id h0 → loads_key c = Some k → j = shard_idx mask k → Forall (fits mask c h) h0.
Proof. intros [|] Hk Hj; apply Forall_app; (split; [by apply began_fits || by apply queued_fits|by fs]). Qed.
Lemma guardian_fits mask c j k id h0 h : guardian j c k id h0 → loads_key c = Some k → j = shard_idx mask k → Forall (fits mask c h) h0.
Proof. intros [H|[-> ->]] Hk Hj; [by eapply guarded_fits|by apply queued_fits]. Qed.
Lemma dropped_fits mask c j id h0 h : dropped j id h0 → (∀ z, z ∈ h0 → z ∈ h) → Forall (fits mask c h) h0.
Proof. intros [|] Hs; fs. simpl. apply Hs. right; left. Qed.
Lemma life_fits mask n c h r : life mask n c h r → Forall (fits mask c h) h.
Proof.
  intros H. destruct H.
  - fs; simpl; rewrite H; eauto.
  - constructor; [done|]. apply Forall_fmap, Forall_forall. intros j _. simpl. rewrite H. eauto.
  - fs; simpl; split_and!; eauto 6.
  - apply Forall_app. split; [by apply asked_fits|]. by fs.
  - apply Forall_app. split; [by apply asked_fits|]. by fs.
  - by apply queued_fits.
  - by apply queued_fits.
  - by fs.
  - by apply queued_fits.
  - apply Forall_app. split; [by apply queued_fits|]. eapply dropped_fits; [done|]. intros z Hz. apply elem_of_app. by right.
  - apply Forall_app. split; [by eapply guarded_fits|]. fs. simpl. exists k. split_and!; try done. apply elem_of_app. right. left.
  - apply Forall_app. split; [by eapply guarded_fits|]. fs. simpl. exists k. split_and!; try done. apply elem_of_app. right. left.
  - apply Forall_app. split; [by eapply guarded_fits|]. eapply dropped_fits; [done|]. intros z Hz. apply elem_of_app. by right.
Qed.
Lemma hpc_fits mask n c x h : hpc mask n c x h → Forall (fits mask c h) h.
Proof.
  intros H.
  assert (∀ m i, c = KCmd m → key_of m = None → Forall (fits mask c h) (EvCall c :: map (all_ev m) (seq 0 i))) as Hall.
  { intros m i -> Hk. constructor; [done|]. apply Forall_fmap, Forall_forall. intros j _. simpl. rewrite Hk. eauto. }
  assert (∀ k gc, get_call c k gc → c = KCmd (CGet k) ∨ loads_key c = Some k) as Hget by (intros k [|to|wk]; simpl; intros ->; auto).
  assert (∀ j k o, c = KCmd (CGet k) ∨ loads_key c = Some k → j = shard_idx mask k → fits mask c h (EvSec j (OCmd (CGet k)) (SO o))) as Hgf.
  { intros j k o Hc Hj. simpl. split_and!; eauto. destruct Hc; eauto. }
  destruct x; simpl in H;
    try (destruct nm; simpl in H); try (destruct sm; simpl in H);
    repeat match goal with
    | H : ∃ _, _ |- _ => destruct H as [? H]
    | H : _ ∧ _ |- _ => destruct H as [? H]
    end; 
    try match goal with H : join_call _ _ _ |- _ => apply loads_join in H end;
    try match goal with H : h = _ |- _ => rewrite H at 2 end;
    try (by apply Hall); try (by apply began_fits); try (by apply queued_fits); try (by apply asked_fits); try (by fs);
    try (by eapply guarded_fits); try (by eapply guardian_fits).
  all: try (apply queued_fits; [by subst c|done]).
  all: try (apply Forall_app; split; [first [by eapply guarded_fits|by eapply guardian_fits|by apply asked_fits]|by fs]).
  - fs. apply Hgf; eauto.
  - fs. apply Hgf; eauto.
  - unfold asked. fs. apply Hgf; eauto.
  - fs. apply Hgf; auto.
  - fs. apply Hgf; auto.
  - apply Forall_app. split; [|by fs]. match goal with H : life _ _ _ _ _ |- _ => apply life_fits in H end.
    eapply Forall_impl; [done|]. intros ev. apply fits_mono. intros z Hz. subst h. apply elem_of_app. by left.
Qed.
Lemma log_fits y a (ev : cevent P) : Reach y → (a, ev) ∈ y_log y → not_note ev = true →
  ∃ ag, y_agents y !! a = Some ag ∧ fits (sc_mask (y_cache y)) (a_call ag) (hist (y_log y) a) ev.
Proof.
  intros HR Hin Hn. pose proof (hi_log _ (rc_h _ HR) _ _ Hin) as Hlt. apply lookup_lt_is_Some in Hlt as [ag Ha]. exists ag. split; [done|].
  pose proof (hpc_fits _ _ _ _ _ (hi_agent _ (rc_h _ HR) _ _ Ha)) as Hf. rewrite Forall_forall in Hf. apply Hf. by apply hist_in.
Qed.
Lemma join_shard y a j k r : Reach y → (a, EvSec j (OJoin k) r) ∈ y_log y → j = shard_idx (sc_mask (y_cache y)) k ∧ j < length (sc_shards (y_cache y)).
Proof.
  intros HR H. destruct (log_fits _ _ _ HR H eq_refl) as (ag & _ & _ & ->). split; [done|].
  rewrite (ci_len _ _ _ _ _ (rc_c _ HR)), (ci_mask _ _ _ _ _ (rc_c _ HR)). apply shard_idx_lt.
Qed.

(* ---- loads of the same key ---- *)
Lemma cancels_dec m k : {cancels budget m k} + {¬ cancels budget m k}.
Proof.
  destruct m as [?|?|?|? ?|? ?|k0|? ? ? ? ?|rs k0 v wl|?| | | |? ? ?|? ? ? ?|? ? ?|? ? ? ?]; simpl; try (by right; tauto); try (by left).
  - destruct (keqb P k0 k); [by left|by right].
  - destruct (keqb P k0 k), (admission budget rs k0 v).2; (by left) || (right; by intros []).
Qed.
Lemma ends_dec k id (z : sop P * sres P) : {@ends P budget k id z} + {¬ @ends P budget k id z}.
Proof. destruct z as [[m|k'|rs id' v wl|id'] [o|v0|id0|id0|v0|]]; simpl; try (by right; tauto); try apply cancels_dec; apply (decide (id' = id)). Qed.
Lemma sections_cons j (z : nat * cevent P) g : sections j (z :: g) = sec_of j z ++ sections j g.
Proof. done. Qed.
Lemma sec_of_same j a (o : sop P) r : sec_of j (a, EvSec j o r) = [(o, r)].
Proof. unfold sec_of. simpl. by rewrite decide_True. Qed.
(* what took the load out of the cache *)
Lemma not_pending y j k id g1 b g2 g3 d : Reach y → y_log y = g1 ++ (b, EvSec j (OJoin k) (SNew id)) :: g2 ++ g3 →
  legal cap budget (sections j (g1 ++ (b, EvSec j (OJoin k) (SNew id)) :: g2)) d → ss_pend d id ≠ Some k →
  (∃ (c : nat) m o, (c, EvSec j (OCmd m) (SO o)) ∈ g2 ∧ cancels budget m k) ∨ (∃ (c : nat) v, (c, EvPut (j, id) v) ∈ y_log y) ∨ ended (y_log y) (j, id).
Proof.
  intros HR E HL Hn. rewrite sections_app, sections_cons, sec_of_same in HL.
  destruct (List.Exists_dec (@ends P budget k id) (sections j g2) (ends_dec k id)) as [Hex|Hex].
  - apply Exists_exists in Hex as ([o r] & Hin & He). apply in_sections in Hin as [c Hc].
    assert ((c, EvSec j o r) ∈ y_log y) as Hin by (rewrite E; apply elem_of_app; right; right; apply elem_of_app; by left).
    destruct (log_fits _ _ _ HR Hin eq_refl) as (ag & _ & Hf).
    destruct o as [m|k'|rs id' v wl|id'], r as [o|v0|id0|id0|v0|]; try done; simpl in He.
    + left. by exists c, m, o.
    + subst id'. destruct Hf as (_ & _ & _ & Hf). right; left. exists c, v. by apply hist_in.
    + subst id'. simpl in Hf. right; right. exists c. by apply hist_in.
  - exfalso. apply Hn. apply (legal_pending _ _ HL id k). exists (sections j g1), (sections j g2). split; [done|].
    apply Forall_forall. intros z Hz He. apply Hex, Exists_exists. by exists z.
Qed.
Lemma per_key y ga (c1 : nat) j1 k1 id1 gb (c2 : nat) j2 k2 id2 gc (a : nat) : Reach y → GInv y →
  y_log y = ga ++ (c1, EvSec j1 (OJoin k1) (SNew id1)) :: gb ++ (c2, EvSec j2 (OJoin k2) (SNew id2)) :: gc →
  keqb P k1 k2 = true → in_charge (y_log y) (j1, id1) a →
  j1 = j2 ∧ ∃ (d : nat) m o, (d, EvSec j1 (OCmd m) (SO o)) ∈ gb ∧ cancels budget m k1.
Proof.
  intros HR HG E Hk Hc.
  assert ((c1, EvSec j1 (OJoin k1) (SNew id1)) ∈ y_log y) as H1 by (rewrite E; apply elem_of_app; right; left).
  assert ((c2, EvSec j2 (OJoin k2) (SNew id2)) ∈ y_log y) as H2 by (rewrite E; apply elem_of_app; right; right; apply elem_of_app; right; left).
  destruct (join_shard _ _ _ _ _ HR H1) as [E1 Hlt]. destruct (join_shard _ _ _ _ _ HR H2) as [E2 _].
  assert (j1 = j2) as <- by (rewrite E1, E2; by apply (idx_keqb LW)). split; [done|].
  destruct (legal_at y j1 HR Hlt) as (s & d & _ & HL & _).
  rewrite E, app_comm_cons, app_assoc, sections_app, sections_cons, sec_of_same in HL.
  apply legal_mid in HL as (d0 & d1 & HL & Hs & _). simpl in Hs.
  destruct (not_pending y j1 k1 id1 ga c1 gb ((c2, EvSec j1 (OJoin k2) (SNew id2)) :: gc) d0) as [H|[(c & v & H)|H]]; try done.
  - intros Hp. destruct d0 as [c0 p0 n0], d1. simpl in Hs, Hp. destruct Hs as (_ & Hs & _). apply Hs in Hp.
    rewrite (keqb_sym _ LW k1 k2 Hk) in Hp. done.
  - exfalso. apply (in_charge_iff _ _ _ HR) in Hc as [Hl _]. by rewrite (put_load _ _ _ _ HR H) in Hl.
  - exfalso. apply (in_charge_iff _ _ _ HR) in Hc as [Hl _]. by rewrite (gi_end _ HG _ H) in Hl.
Qed.
End concfacts.
