(* Proofs about the default lifecycle. *)
From stdpp Require Import prelude list.
From Verif Require Export DefaultLife ConcLoad.

Lemma sync_default_lawful P : Lawful P → Lawful (sync_default P).
Proof. intros []. by split. Qed.
Lemma unsync_default_lawful P : Lawful P → Lawful (unsync_default P).
Proof. intros []. by split. Qed.

Lemma last_stash {A} (l : list A) x (rs : option A) : from_option Some (Some x) (last l) = from_option Some rs (last (x :: l)).
Proof. rewrite last_cons. by destruct (last l). Qed.

Section default.
Context {P : Params}.
Notation D := (sync_default P).

Lemma threads_stash (es : list (event D)) (rs rs' : RS D) : threads rs es rs' → rs' = from_option Some rs (last (evicted es)).
Proof.
  revert rs. induction es as [|[k v v'|k v] es IH]; intros rs; simpl.
  - done.
  - intros (rs1 & E & H). injection E as <- <-. by apply IH.
  - intros H. apply IH in H as ->. exact (last_stash (evicted es) (k, v) rs).
Qed.
Lemma threads_same (es : list (event D)) (rs rs' : RS D) k v v' : threads rs es rs' → EvBefore k v v' ∈ es → v' = v.
Proof.
  revert rs. induction es as [|[k0 v0 v0'|k0 v0] es IH]; intros rs; simpl; [by intros _ ?%elem_of_nil|..].
  - intros (rs1 & E & H) [Ez|Hin]%elem_of_cons; [|by eapply IH]. injection E as <- E2. injection Ez as -> -> ->. done.
  - intros H [Ez|Hin]%elem_of_cons; [done|by eapply IH].
Qed.
End default.

Section conc.
Context {P : Params} (LW : Lawful P) (PI : ptr_ids P = true).
Context {budget ghosts cap e : N}.
Lemma sec_spec dbg ls (y : sys P) a j x r : execution dbg budget ghosts cap e ls y → (a, EvSec j x r) ∈ y_log y →
  match x with OCmd m => is_Some (key_of m) | OFill _ _ _ _ => True | _ => False end → ∃ d d', sdoes cap budget d x r d'.
Proof.
  intros H Hin Hx. destruct (ginv LW PI _ _ _ H) as [HR _]. destruct (log_fits _ _ _ HR Hin eq_refl) as (ag & _ & Hf).
  assert (∃ k, j = shard_idx (P:=P) (sc_mask (y_cache y)) k) as [k Hj].
  { destruct x; simpl in Hf; try done.
    - destruct Hx as [k Hk]. rewrite Hk in Hf. destruct Hf as (_ & _ & ?). eauto.
    - destruct Hf as (k & _ & ? & _). eauto. }
  assert (j < length (sc_shards (y_cache y))) as Hlt.
  { subst j. rewrite (ci_len _ _ _ _ _ (rc_c _ HR)), (ci_mask _ _ _ _ _ (rc_c _ HR)). apply shard_idx_lt. }
  destruct (legal_at y j HR Hlt) as (s & d & _ & HL & _). apply elem_of_list_split in Hin as (g1 & g2 & E). rewrite E in HL.
  rewrite sections_app, sections_cons, sec_of_same in HL. apply legal_mid in HL as (d0 & d1 & _ & Hs & _). eauto.
Qed.
End conc.

Lemma filter_sub {A} f (l : list A) : List.filter f l ⊆+ l.
Proof. induction l as [|x l IH]; simpl; [done|]. destruct (f x); [by apply submseteq_skip|by apply submseteq_cons]. Qed.

Section accounts.
Context {P : Params} (LW : Lawful P) (PI : ptr_ids P = true) (Hid : ∀ rs k v, (before_evict P rs k v).2 = v).
Context {budget ghosts cap e : N}.
Notation hist_ := (list (sop P * sres P)).
Notation execution dbg := (execution (P:=P) dbg budget ghosts cap e).

Lemma inserts_conserve b rs (c : contents P) k v (es : list (event P)) rs' c' o : ukeys c → inserts cap budget b rs c k v es rs' c' o →
  (k, v) :: c ≡ₚ c' ++ evicted es ++ from_option (λ p, [p]) [] o.
Proof.
  intros Hu Hi. pose proof (explains_conserve _ _ _ Hid (inserts_explains LW _ _ _ _ _ _ _ _ _ _ _ Hu Hi) (inserts_real _ _ _ _ _ _ _ _ _ _ _ Hi)) as ->.
  rewrite <-!app_assoc. f_equiv. by rewrite Permutation_app_comm.
Qed.
Lemma loads_conserve rs (c : contents P) k v (es : list (event P)) rs' c' : loads cap budget rs c k v es rs' c' → (k, v) :: c ≡ₚ c' ++ evicted es.
Proof. intros Hi. exact (explains_conserve _ _ _ Hid (loads_explains _ _ _ _ _ _ _ _ _ Hi) (loads_real _ _ _ _ _ _ _ _ _ Hi)). Qed.

Lemma del_out k (c : contents P) : ukeys c → c ≡ₚ del k c ++ from_option (λ p, [p]) [] (find_key k c).
Proof.
  intros Hu. destruct (find_key k c) as [p|] eqn:E; simpl.
  - apply find_key_Some in E as [Hin Hk]. apply elem_of_Permutation in Hin as [c0 Hp]. rewrite (del_perm k _ _ Hp).
    rewrite (del_head LW); [|by apply (ukeys_perm LW _ _ Hp)|done]. rewrite Hp. by rewrite <-Permutation_cons_append.
  - rewrite app_nil_r. unfold del. induction c as [|q c IH]; simpl; [done|]. destruct (keqb P k q.1) eqn:Eq; simpl.
    + exfalso. unfold find_key in E. simpl in E. by rewrite Eq in E.
    + f_equiv. apply IH; [by destruct Hu|]. unfold find_key in *. simpl in E. by rewrite Eq in E.
Qed.

Lemma sdoes_account lk (c : contents P) pd n x r c' pd' n' : ukeys c → (∀ id k, pd id = Some k → lk id = Some k) →
  sdoes cap budget (SSt c pd n) x r (SSt c' pd' n') →
  c' ++ comes_out lk (x, r) ⊆+ c ++ goes_in lk (x, r) ∧ (drops (x, r) = false → c' ++ comes_out lk (x, r) ≡ₚ c ++ goes_in lk (x, r)).
Proof.
  intros Hu Hlk Hs.
  assert (c' ++ comes_out lk (x, r) ≡ₚ c ++ goes_in lk (x, r) → c' ++ comes_out lk (x, r) ⊆+ c ++ goes_in lk (x, r) ∧
    (drops (x, r) = false → c' ++ comes_out lk (x, r) ≡ₚ c ++ goes_in lk (x, r))) as Heq by (intros ->; done).
  destruct x as [m|k|rs id v wl|id], r as [o|v0|id0|id0|v0|]; simpl in Hs; try done;
    try (apply Heq; unfold comes_out, goes_in; simpl; rewrite ?app_nil_r; first [by destruct Hs as (_ & _ & _ & ? & _)|by destruct Hs as (_ & _ & ? & _)|by destruct Hs as (_ & ? & _)|by destruct Hs as (? & _)]).
  - destruct Hs as (Hsc & Hd & _).
    destruct m as [?|?|?|? ?|? ?|k0|rs k0 v soft wl|rs k0 v wl|f| | | |? ? ?|? ? ? ?|? ? ?|? ? ? ?]; try done; unfold comes_out, goes_in, drops; simpl in *.
    + destruct Hd as [Hp ->]. simpl. by rewrite Hp.
    + destruct Hd as [Hp ->]. simpl. by rewrite Hp.
    + destruct Hd as [Hp ->]. simpl. by rewrite Hp.
    + destruct Hd as [Hp ->]. simpl. assert (c' ++ match find_key k0 c with Some p => [p] | None => [] end ≡ₚ c ++ []) as HE; [|by rewrite HE].
      rewrite Hp, app_nil_r. symmetry. by apply del_out.
    + destruct Hd as (es & rs' & b & Hi & ->). pose proof (inserts_conserve _ _ _ _ _ _ _ _ _ Hu Hi) as Hc.
      assert (c ++ [(k0, v)] ≡ₚ c' ++ evicted es ++ from_option (λ p, [p]) [] b) as HE.
      { rewrite <-Hc. by rewrite <-Permutation_cons_append. }
      destruct b as [p|]; [rewrite hooks_of_begin|rewrite hooks_of_reply]; simpl in *; by rewrite HE.
    + destruct Hd as (es & rs' & Hi & ->). pose proof (inserts_conserve _ _ _ _ _ _ _ _ _ Hu Hi) as Hc.
      assert (c ++ [(k0, v)] ≡ₚ c' ++ evicted es ++ []) as HE by (by rewrite <-Permutation_cons_append).
      rewrite hooks_of_reply. simpl. by rewrite HE.
    + destruct Hd as [Hp ->]. simpl. split; [|done]. rewrite !app_nil_r, Hp. apply filter_sub.
    + destruct Hd as [-> ->]. simpl. split; [|done]. apply submseteq_nil_l.
    + destruct Hd as [Hp ->]. simpl. by rewrite Hp.
  - destruct Hs as (k & es & rs' & Hk & Hl & -> & _). apply Heq. unfold comes_out, goes_in. simpl. rewrite (Hlk _ _ Hk), hooks_of_reply. simpl.
    rewrite app_nil_r. rewrite <-(loads_conserve _ _ _ _ _ _ _ Hl). by rewrite <-Permutation_cons_append.
  - destruct Hs as (_ & -> & Hp & _). apply Heq. unfold comes_out, goes_in. simpl. by rewrite Hp.
Qed.

Definition out_of lk (h : hist_) := concat (map (comes_out lk) h).
Definition into lk (h : hist_) := concat (map (goes_in lk) h).
Lemma account dbg ls y : execution dbg ls y → ∀ j s lk, shard_at y j = Some s →
  (∀ id k, (OJoin k, SNew id) ∈ sections j (y_log y) → lk id = Some k) →
  sh_iter s ++ out_of lk (sections j (y_log y)) ⊆+ into lk (sections j (y_log y)) ∧
  (forallb (λ z, negb (drops z)) (sections j (y_log y)) = true → sh_iter s ++ out_of lk (sections j (y_log y)) ≡ₚ into lk (sections j (y_log y))).
Proof.
  unfold ConcSpec.execution. intros H. remember (sys_new budget ghosts cap e) as y0. pose proof H as H0. induction H as [|y0 ls y1 lb y2 H IH Hs].
  - subst. intros j s lk Hj _. simpl. apply lookup_replicate in Hj as [-> _]. done.
  - subst. specialize (IH eq_refl H). intros j s' lk Hj Hlk. destruct (ginv LW PI _ _ _ H) as [HR _].
    destruct (cstep_exact LW PI _ _ _ _ (rc_c _ HR) Hs) as (es & El & Hx).
    destruct (ginv LW PI _ _ _ H0) as [HR2 _].
    assert (is_Some (shard_at y1 j)) as [s Es].
    { unfold shard_at in *. apply lookup_lt_is_Some. apply lookup_lt_Some in Hj.
      by rewrite (ci_len _ _ _ _ _ (rc_c _ HR2)) in Hj; rewrite (ci_len _ _ _ _ _ (rc_c _ HR)). }
    destruct (Hx j s Es) as (s'' & Hs'' & Hc). assert (s'' = s') as -> by (unfold shard_at in *; congruence). clear Hs''.
    rewrite El, sections_app in *. destruct (IH j s lk Es) as [I1 I2]; [intros id k Hin; apply Hlk, elem_of_app; by left|].
    destruct Hc as [[H1 (H2 & _)]|(o & r & H1 & H2)]; rewrite H1 in *.
    + cbn [abs ss_items] in H2. rewrite app_nil_r. first [rewrite H2|rewrite <-H2]. done.
    + unfold out_of, into in *. rewrite !map_app, !concat_app, forallb_app. cbn [map concat forallb]. rewrite !app_nil_r.
      destruct (ci_legal _ _ _ _ _ (rc_c _ HR) j s Es) as (d & HL & Ed1 & Ed2 & _).
      destruct (sdoes_account lk (sh_iter s) (pend_of s) (sh_nph s) o r (sh_iter s') (pend_of s') (sh_nph s')) as [A1 A2]; [..|exact H2|].
      { apply (inv_ukeys LW). by apply (ci_inv _ _ _ _ _ (rc_c _ HR) j s). }
      { intros id k Hk. apply Hlk, elem_of_app. left. change (ss_pend (abs s) id = Some k) in Hk. rewrite <-(Ed2 id) in Hk. apply (legal_pending _ _ HL) in Hk as (h1 & h2 & -> & _).
        apply elem_of_app. right. by left. }
      assert (sh_iter s' ++ concat (map (comes_out lk) (sections j (y_log y1))) ++ comes_out lk (o, r)
        ≡ₚ (sh_iter s' ++ comes_out lk (o, r)) ++ concat (map (comes_out lk) (sections j (y_log y1)))) as E1 by solve_Permutation.
      assert ((sh_iter s ++ goes_in lk (o, r)) ++ concat (map (comes_out lk) (sections j (y_log y1)))
        ≡ₚ (sh_iter s ++ concat (map (comes_out lk) (sections j (y_log y1)))) ++ goes_in lk (o, r)) as E2 by solve_Permutation.
      split.
      * rewrite E1. etrans; [exact (submseteq_app _ _ _ _ A1 (reflexivity _))|]. rewrite E2. exact (submseteq_app _ _ _ _ I1 (reflexivity _)).
      * intros [F1 F2]%andb_true_iff. rewrite E1, A2, E2, I2; [done|done|]. by destruct (drops (o, r)).
Qed.
Lemma load_key_in (h : hist_) d id k : legal cap budget h d → (OJoin k, SNew id) ∈ h → load_key h id = Some k.
Proof.
  intros HL Hin. apply elem_of_list_split in Hin as (h1 & h2 & E).
  assert (∀ k', (OJoin k', SNew id) ∉ h1) as Hn by (intros k'; exact (proj1 (legal_once _ _ HL id k k' _ _ E))). rewrite E. clear -Hn.
  induction h1 as [|[x r] h1 IH]; cbn [app load_key]; [by rewrite decide_True|].
  assert (load_key (h1 ++ (OJoin k, SNew id) :: h2) id = Some k) as IH' by (apply IH; intros k' Hk; apply (Hn k'); by right).
  destruct x; try done. destruct r as [|?|?|i|?|]; try done. case_decide; [subst i|done]. destruct (Hn k0). by left.
Qed.
Lemma accounts dbg ls y j s : execution dbg ls y → shard_at y j = Some s →
  sh_iter s ++ got_out (sections j (y_log y)) ⊆+ put_in (sections j (y_log y)) ∧
  (forallb (λ z, negb (drops z)) (sections j (y_log y)) = true → sh_iter s ++ got_out (sections j (y_log y)) ≡ₚ put_in (sections j (y_log y))).
Proof.
  intros H Hj. apply (account _ _ _ H j s _ Hj). intros id k. destruct (ginv LW PI _ _ _ H) as [HR _].
  destruct (ci_legal _ _ _ _ _ (rc_c _ HR) j s Hj) as (d & HL & _). exact (load_key_in _ _ _ _ HL).
Qed.
End accounts.
